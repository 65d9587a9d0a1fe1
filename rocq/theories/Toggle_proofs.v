(** Proofs about records of blocks that are open when tracing is switched. *)
From Coq Require Import List Arith NArith ZArith Bool Lia.
Import ListNotations.
From Verif Require Import UnixSystem_model UnixSystem_proofs TraceEvent_model Config_model Config_spec Config_proofs Toggle_spec.

(** ** From the program to the record *)
Lemma points_app l l' : points (l ++ l') = points l ++ points l'.
Proof. apply flat_map_app. Qed.

Lemma points_calls p : forall i j, points (fst (calls_of i p)) = points (fst (calls_of j p)) /\ snd (calls_of i p) = snd (calls_of j p).
Proof.
  induction p as [|t tm|p IHp q IHq|id t1 t2 p IHp|ip b p IHp| |p IHp q IHq]; intros i j; cbn [calls_of]; auto.
  - destruct (IHp i j) as (A & B). destruct (IHq i j) as (C & D).
    destruct (calls_of i p) as [l x], (calls_of j p) as [l' x'], (calls_of i q) as [m y], (calls_of j q) as [m' y']. cbn [fst snd] in *. subst x' y'.
    destruct x; cbn [fst snd]; auto. rewrite !points_app, A, C. auto.
  - destruct (IHp i j) as (A & B). destruct (calls_of i p) as [l x], (calls_of j p) as [l' x']. cbn [fst snd] in *. split; auto.
    change (event_of (TpEntry id) t1 :: points (l ++ [GTrace i (TpExit id) t2 true]) = event_of (TpEntry id) t1 :: points (l' ++ [GTrace j (TpExit id) t2 true])).
    rewrite !points_app, A. reflexivity.
  - destruct (IHp i j) as (A & B). destruct (calls_of i p) as [l x], (calls_of j p) as [l' x']. cbn [fst snd] in *. split; auto.
    change (points (l ++ [GUnscope i]) = points (l' ++ [GUnscope j])). rewrite !points_app, A. reflexivity.
  - destruct (IHp i j) as (A & B). destruct (IHq i j) as (C & D).
    destruct (calls_of i p) as [l x], (calls_of j p) as [l' x'], (calls_of i q) as [m y], (calls_of j q) as [m' y']. cbn [fst snd] in *. subst x' y'.
    destruct x; cbn [fst snd]; auto. rewrite !points_app, A, C. auto.
Qed.

Lemma points_call ls : points (map call ls) = points ls.
Proof. induction ls as [|l ls IH]; auto. destruct l; cbn; try exact IH. f_equal. exact IH. Qed.

Fixpoint pick (m : list bool) (l : list tev) : list tev :=
  match m, l with b :: m', e :: l' => if b then e :: pick m' l' else pick m' l' | _, _ => [] end.
Lemma recorded_pick m : forall l k, map snd (recorded k m l) = pick m l.
Proof. induction m as [|b m IH]; intros [|e l] k; auto. cbn. destruct b; cbn; rewrite IH; auto. Qed.

Lemma others_keep l a a' i x : astep l a = Some a' -> nth_error (a_threads a) i = Some x -> thread_of l <> Some i ->
  exists x', nth_error (a_threads a') i = Some x' /\ a_events x' = a_events x.
Proof.
  intros E Hx T. destruct (match l with GRemote _ => true | _ => false end) eqn:R.
  - destruct l as [| | | | | | |[|sp p ths]| |]; try discriminate R; cbn in E; injection E as <-; [eauto|].
    cbn. rewrite nth_error_map, Hx. cbn. eexists. split; [reflexivity|]. unfold remote_thread. destruct (_ && _); auto. destruct (asked _ _); auto.
  - assert (NR : forall r, l <> GRemote r) by (intros r ->; discriminate R).
    pose proof (other_thread _ _ _ _ _ E Hx T NR) as H. exists x. split; auto.
Qed.

Lemma own_keep l a a' i x : astep l a = Some a' -> nth_error (a_threads a) i = Some x -> thread_of l = Some i ->
  exists x', nth_error (a_threads a') i = Some x' /\
    a_events x' = a_events x ++ match l with GTrace _ p time room => if a_process a && a_on x && room then [event_of p time] else [] | _ => [] end /\
    a_live x = true.
Proof.
  intros E Hx T. assert (LT : i < length (a_threads a)) by (apply nth_error_Some; congruence).
  destruct l as [tid|j p time room|j|j b|b|j isp b|j|r|j|j b]; cbn in T; try discriminate T; injection T as ->; cbn in E; rewrite ?Hx in E; try discriminate E;
    destruct (a_live x) eqn:LX; try discriminate E.
  - injection E as <-. cbn. rewrite set_nth_same by auto. eexists. split; [reflexivity|]. cbn. auto.
  - injection E as <-. cbn. rewrite set_nth_same by auto. eexists. split; [reflexivity|]. cbn. rewrite app_nil_r. auto.
  - injection E as <-. cbn. rewrite set_nth_same by auto. eexists. split; [reflexivity|]. cbn. rewrite app_nil_r. auto.
  - destruct isp; injection E as <-; cbn; rewrite set_nth_same by auto; (eexists; split; [reflexivity|]; cbn; rewrite app_nil_r; auto).
  - destruct (a_scopes x) as [|[[|] prev] r]; [discriminate E| |]; injection E as <-; cbn; rewrite set_nth_same by auto; (eexists; split; [reflexivity|]; cbn; rewrite app_nil_r; auto).
  - injection E as <-. cbn. rewrite set_nth_same by auto. eexists. split; [reflexivity|]. cbn. rewrite app_nil_r. auto.
Qed.

Lemma tracing_abs s a i x : rel s a -> nth_error (a_threads a) i = Some x -> a_live x = true -> tracing s i = a_process a && a_on x.
Proof.
  intros R Hx L. destruct (rel_seen _ _ R) as (P & _ & TS). destruct (rel_nth_a _ _ _ _ R Hx) as (t & Ht & _).
  unfold tracing. rewrite Ht, P, (TS _ _ _ Ht Hx L). reflexivity.
Qed.

Lemma run_picks i : forall ls s a s' x, Forall not_late ls -> rel s a -> grun ls s = Some s' -> nth_error (a_threads a) i = Some x ->
  length (marks i ls s) = length (points (steps_of i ls)) /\
  exists a' x', rel s' a' /\ nth_error (a_threads a') i = Some x' /\ a_events x' = a_events x ++ pick (marks i ls s) (points (steps_of i ls)).
Proof.
  induction ls as [|l ls IH]; intros s a s' x F R E Hx.
  - cbn in E. injection E as <-. split; auto. exists a, x. cbn. rewrite app_nil_r. auto.
  - inversion_clear F as [|? ? NL F']. cbn in E. destruct (gstep l s) as [s1|] eqn:G; [|discriminate E].
    destruct (step_rel _ _ _ _ NL R G) as (a1 & A1 & R1). cbn [marks]. rewrite G.
    destruct (match thread_of l with Some j => j =? i | None => false end) eqn:T.
    + assert (TO : thread_of l = Some i) by (destruct (thread_of l) as [j|]; [apply Nat.eqb_eq in T; now subst|discriminate T]).
      destruct (own_keep _ _ _ _ _ A1 Hx TO) as (x1 & Hx1 & EV & LX). destruct (IH _ _ _ _ F' R1 E Hx1) as (LEN & a' & x' & R' & Hx' & EV').
      replace (steps_of i (l :: ls)) with (l :: steps_of i ls) by (unfold steps_of; cbn; rewrite T; reflexivity).
      destruct (match l with GTrace _ _ _ _ => true | _ => false end) eqn:TR.
      * destruct l as [|j p time room| | | | | | | |]; try discriminate TR. cbn in T. cbn in TO. injection TO as ->.
        rewrite Nat.eqb_refl. cbn [app points flat_map]. fold (points (steps_of i ls)). cbn [length]. split; [f_equal; exact LEN|].
        exists a', x'. split; auto. split; auto. rewrite EV', EV. rewrite (tracing_abs _ _ _ _ R Hx LX). cbn [pick].
        destruct (a_process a && a_on x && room); rewrite <- app_assoc; auto.
      * assert (P : points (l :: steps_of i ls) = points (steps_of i ls)) by (destruct l; try reflexivity; discriminate TR).
        rewrite P. replace ((match l with GTrace j _ _ room => if j =? i then [tracing s i && room] else [] | _ => [] end) ++ marks i ls s1) with (marks i ls s1)
          by (destruct l; try reflexivity; discriminate TR).
        split; auto. exists a', x'. split; auto. split; auto. rewrite EV', EV. destruct l; try discriminate TR; rewrite app_nil_r; reflexivity.
    + assert (TO : thread_of l <> Some i) by (intros Q; rewrite Q, Nat.eqb_refl in T; discriminate T).
      destruct (others_keep _ _ _ _ _ A1 Hx TO) as (x1 & Hx1 & EV). destruct (IH _ _ _ _ F' R1 E Hx1) as (LEN & a' & x' & R' & Hx' & EV').
      replace (steps_of i (l :: ls)) with (steps_of i ls) by (unfold steps_of; cbn; rewrite T; reflexivity).
      replace ((match l with GTrace j _ _ room => if j =? i then [tracing s i && room] else [] | _ => [] end) ++ marks i ls s1) with (marks i ls s1)
        by (destruct l; try reflexivity; cbn in T; rewrite T; reflexivity).
      split; auto. exists a', x'. split; auto. split; auto. rewrite EV', EV. reflexivity.
Qed.

Theorem record_of_program ls0 s0 i p ls s evs0 :
  Forall not_late ls0 -> grun ls0 cfg0 = Some s0 -> events_are s0 i evs0 ->
  runs_program i p ls -> Forall not_late ls -> grun ls s0 = Some s ->
  length (marks i ls s0) = length (events_of p) /\
  events_are s i (evs0 ++ map snd (recorded 0 (marks i ls s0) (events_of p))).
Proof.
  intros F0 E0 V0 RP F E. destruct (reach _ _ F0 E0) as (a0 & _ & R0).
  destruct (proj1 (rel_events _ _ _ _ R0) V0) as (x & Hx & EV).
  destruct (run_picks i _ _ _ _ _ F R0 E Hx) as (LEN & a' & x' & R' & Hx' & EV').
  assert (PT : points (steps_of i ls) = events_of p).
  { rewrite <- points_call. unfold runs_program in RP. rewrite RP. unfold events_of. apply points_calls. }
  rewrite PT in *. split; auto. apply (rel_events _ _ _ _ R'). exists x'. split; auto. rewrite EV', EV, recorded_pick. reflexivity.
Qed.

(** ** The reader *)
Fixpoint open_after (st : list nat) (l : list (nat * tev)) : list nat :=
  match l with
  | [] => st
  | (k, e) :: l' =>
      if N.eqb (te_type e) SCOPE_ENTRY then open_after (k :: st) l'
      else if N.eqb (te_type e) SCOPE_EXIT then open_after (tl st) l'
      else open_after st l'
  end.
Lemma shown_app l : forall st l', shown st (l ++ l') = shown st l ++ shown (open_after st l) l'.
Proof.
  induction l as [|[k e] l IH]; intros st l'; auto. cbn [app shown open_after].
  destruct (N.eqb (te_type e) SCOPE_ENTRY); auto. destruct (N.eqb (te_type e) SCOPE_EXIT); auto. destruct st as [|b st']; cbn; auto. f_equal. apply IH.
Qed.
Lemma open_after_app l : forall st l', open_after st (l ++ l') = open_after (open_after st l) l'.
Proof.
  induction l as [|[k e] l IH]; intros st l'; auto. cbn [app open_after].
  destruct (N.eqb (te_type e) SCOPE_ENTRY); auto. destruct (N.eqb (te_type e) SCOPE_EXIT); auto.
Qed.

(** The record by position: the function [r] tells which tracepoints are in it. *)
Fixpoint rec (r : nat -> bool) (k : nat) (l : list tev) : list (nat * tev) :=
  match l with [] => [] | e :: l' => (if r k then [(k, e)] else []) ++ rec r (S k) l' end.
Lemma rec_app r l : forall k l', rec r k (l ++ l') = rec r k l ++ rec r (k + length l) l'.
Proof. induction l as [|e l IH]; intros k l'; cbn [app rec length]; [rewrite Nat.add_0_r; auto|]. rewrite IH, app_assoc. f_equal. f_equal. lia. Qed.
Lemma rec_ext r r' l : forall k, (forall j, k <= j -> r j = r' j) -> rec r k l = rec r' k l.
Proof. induction l as [|e l IH]; intros k H; auto. cbn. rewrite (H k), (IH (S k)); auto. intros; apply H; lia. Qed.
Lemma recorded_rec l : forall m k r, length m = length l -> (forall j, r (k + j) = nth j m false) -> recorded k m l = rec r k l.
Proof.
  induction l as [|e l IH]; intros [|b m] k r L H; cbn in L; try discriminate L; auto. cbn [recorded rec].
  pose proof (H 0) as H0. rewrite Nat.add_0_r in H0. cbn in H0. rewrite H0. rewrite (IH m (S k) r); [destruct b; auto|lia|].
  intros j. specialize (H (S j)). cbn in H. rewrite <- H. f_equal. lia.
Qed.

(** ** Programs *)
Definition bl (k : nat) (p : sprog) : list (nat * nat) := fst (fst (blocks_from k p)).
Definition ev (p : sprog) : list tev := points (fst (calls_of 0 p)).

Lemma points_trace i t tm l : points (GTrace i t tm true :: l) = event_of t tm :: points l. Proof. reflexivity. Qed.
Lemma points_scope i ip b l : points (GScope i ip b :: l) = points l. Proof. reflexivity. Qed.
Lemma points_unscope i : points [GUnscope i] = []. Proof. reflexivity. Qed.

Lemma blocks_len p : forall k, snd (fst (blocks_from k p)) = k + length (ev p) /\ snd (blocks_from k p) = snd (calls_of 0 p).
Proof.
  unfold ev. induction p as [|t tm|p IHp q IHq|id t1 t2 p IHp|ip b p IHp| |p IHp q IHq]; intros k; cbn [blocks_from calls_of].
  - cbn. lia.
  - cbn. lia.
  - destruct (IHp k) as (A & B). destruct (blocks_from k p) as [[l k1] x]. destruct (calls_of 0 p) as [c y]. cbn [fst snd] in A, B. subst x. destruct y.
    + cbn [fst snd]. auto.
    + destruct (IHq k1) as (C & D). destruct (blocks_from k1 q) as [[l' k2] x']. destruct (calls_of 0 q) as [c' y']. cbn [fst snd] in *. rewrite points_app, app_length. split; auto. lia.
  - destruct (IHp (S k)) as (A & B). destruct (blocks_from (S k) p) as [[l k1] x]. destruct (calls_of 0 p) as [c y]. cbn [fst snd] in *.
    rewrite points_trace, points_app, points_trace. cbn [length]. rewrite app_length. cbn. split; auto. lia.
  - destruct (IHp k) as (A & B). destruct (blocks_from k p) as [[l k1] x]. destruct (calls_of 0 p) as [c y]. cbn [fst snd] in *.
    rewrite points_scope, points_app, points_unscope, app_nil_r. split; auto.
  - cbn. lia.
  - destruct (IHp k) as (A & B). destruct (blocks_from k p) as [[l k1] x]. destruct (calls_of 0 p) as [c y]. cbn [fst snd] in A, B. subst x. destruct y.
    + destruct (IHq k1) as (C & D). destruct (blocks_from k1 q) as [[l' k2] x']. destruct (calls_of 0 q) as [c' y']. cbn [fst snd] in *. rewrite points_app, app_length. split; auto. lia.
    + cbn [fst snd]. auto.
Qed.

(** One view of a program: what it is made of, as far as tracepoints are concerned. *)
Inductive shape : nat -> list (nat * nat) -> list tev -> Prop :=
  | sh_nil : forall k, shape k [] []
  | sh_point : forall k e, te_type e <> SCOPE_ENTRY -> te_type e <> SCOPE_EXIT -> shape k [] [e]
  | sh_app : forall k b1 l1 b2 l2, shape k b1 l1 -> shape (k + length l1) b2 l2 -> shape k (b1 ++ b2) (l1 ++ l2)
  | sh_block : forall k b l e1 e2, te_type e1 = SCOPE_ENTRY -> te_type e2 = SCOPE_EXIT -> shape (S k) b l ->
      shape k ((k, S k + length l) :: b) (e1 :: l ++ [e2]).

Lemma program_shape p : forall k, scoped_only p -> shape k (bl k p) (ev p).
Proof.
  induction p as [|t tm|p IHp q IHq|id t1 t2 p IHp|ip b p IHp| |p IHp q IHq]; intros k SO; cbn [scoped_only] in SO.
  - constructor.
  - unfold bl, ev; cbn. constructor; destruct t as [| |[]|]; try contradiction; discriminate.
  - destruct SO as (S1 & S2). pose proof (IHp k S1) as H1. destruct (blocks_len p k) as (A & B). unfold bl, ev in *. cbn [blocks_from calls_of].
    destruct (blocks_from k p) as [[l k1] x]. destruct (calls_of 0 p) as [c y]. cbn [fst snd] in A, B, H1. subst x k1. destruct y; [exact H1|].
    pose proof (IHq (k + length (points c)) S2) as H2. destruct (blocks_from _ q) as [[l' k2] x']. destruct (calls_of 0 q) as [c' y']. cbn [fst snd] in *. rewrite points_app. now apply sh_app.
  - pose proof (IHp (S k) SO) as H1. destruct (blocks_len p (S k)) as (A & B). unfold bl, ev in *. cbn [blocks_from calls_of].
    destruct (blocks_from (S k) p) as [[l k1] x]. destruct (calls_of 0 p) as [c y]. cbn [fst snd] in *. subst k1.
    change (points (GTrace 0 (TpEntry id) t1 true :: c ++ [GTrace 0 (TpExit id) t2 true])) with (event_of (TpEntry id) t1 :: points (c ++ [GTrace 0 (TpExit id) t2 true])).
    rewrite points_app. apply sh_block; auto.
  - pose proof (IHp k SO) as H1. unfold bl, ev in *. cbn [blocks_from calls_of].
    destruct (blocks_from k p) as [[l k1] x]. destruct (calls_of 0 p) as [c y]. cbn [fst snd] in *.
    change (points (GScope 0 ip b :: c ++ [GUnscope 0])) with (points (c ++ [GUnscope 0])). rewrite points_app, points_unscope, app_nil_r. exact H1.
  - constructor.
  - destruct SO as (S1 & S2). pose proof (IHp k S1) as H1. destruct (blocks_len p k) as (A & B). unfold bl, ev in *. cbn [blocks_from calls_of].
    destruct (blocks_from k p) as [[l k1] x]. destruct (calls_of 0 p) as [c y]. cbn [fst snd] in A, B, H1. subst x k1. destruct y; [|exact H1].
    pose proof (IHq (k + length (points c)) S2) as H2. destruct (blocks_from _ q) as [[l' k2] x']. destruct (calls_of 0 q) as [c' y']. cbn [fst snd] in *. rewrite points_app. now apply sh_app.
Qed.

Lemma shape_range k b l : shape k b l -> forall x y, In (x, y) b -> k <= x /\ x < y /\ y < k + length l.
Proof.
  induction 1 as [k|k e N1 N2|k b1 l1 b2 l2 H1 IH1 H2 IH2|k b l e1 e2 T1 T2 H IH]; intros x y I; try contradiction.
  - rewrite app_length. apply in_app_or in I as [I|I]; [apply IH1 in I|apply IH2 in I]; lia.
  - cbn [length]. rewrite app_length. cbn [length]. destruct I as [I|I]; [injection I as <- <-; lia|apply IH in I; lia].
Qed.

(** Blocks do not overlap. *)
Lemma shape_laminar k b l : shape k b l -> forall x y x' y', In (x, y) b -> In (x', y') b ->
  (x = x' /\ y = y') \/ y < x' \/ y' < x \/ (x < x' /\ y' < y) \/ (x' < x /\ y < y').
Proof.
  induction 1 as [k|k e N1 N2|k b1 l1 b2 l2 H1 IH1 H2 IH2|k b l e1 e2 T1 T2 H IH]; intros x y x' y' I I'; try contradiction.
  - apply in_app_or in I as [I|I]; apply in_app_or in I' as [I'|I'].
    + eauto.
    + apply (shape_range _ _ _ H1) in I. apply (shape_range _ _ _ H2) in I'. lia.
    + apply (shape_range _ _ _ H2) in I. apply (shape_range _ _ _ H1) in I'. lia.
    + eauto.
  - destruct I as [I|I], I' as [I'|I'].
    + injection I as <- <-. injection I' as <- <-. auto.
    + injection I as <- <-. apply (shape_range _ _ _ H) in I'. lia.
    + injection I' as <- <-. apply (shape_range _ _ _ H) in I. lia.
    + eauto.
Qed.

(** Each begin and each end belongs to a block. *)
Lemma nth_error_snoc_last {A} (l : list A) x : nth_error (l ++ [x]) (length l) = Some x.
Proof. rewrite nth_error_app2 by lia. now rewrite Nat.sub_diag. Qed.

Lemma shape_begin k b l : shape k b l -> forall j e, nth_error l j = Some e -> te_type e = SCOPE_ENTRY -> exists y, In (k + j, y) b.
Proof.
  induction 1 as [k|k e0 N1 N2|k b1 l1 b2 l2 H1 IH1 H2 IH2|k b l e1 e2 T1 T2 H IH]; intros j e E T.
  - destruct j; discriminate E.
  - destruct j as [|[|]]; cbn in E; try discriminate E. injection E as <-. contradiction.
  - destruct (Nat.lt_ge_cases j (length l1)) as [L|L].
    + rewrite nth_error_app1 in E by auto. destruct (IH1 _ _ E T) as (y & I). exists y. apply in_or_app. auto.
    + rewrite nth_error_app2 in E by auto. destruct (IH2 _ _ E T) as (y & I). exists y. apply in_or_app. right.
      replace (k + length l1 + (j - length l1)) with (k + j) in I by lia. exact I.
  - destruct j as [|j]; [rewrite Nat.add_0_r; eauto using in_eq|]. cbn in E. destruct (Nat.lt_ge_cases j (length l)) as [L|L].
    + rewrite nth_error_app1 in E by auto. destruct (IH _ _ E T) as (y & I). exists y. right. replace (k + S j) with (S k + j) by lia. exact I.
    + rewrite nth_error_app2 in E by auto. destruct (j - length l) as [|[|]]; cbn in E; try discriminate E. injection E as <-. rewrite T in T2. discriminate T2.
Qed.

Lemma shape_end k b l : shape k b l -> forall j e, nth_error l j = Some e -> te_type e = SCOPE_EXIT -> exists x, In (x, k + j) b.
Proof.
  induction 1 as [k|k e0 N1 N2|k b1 l1 b2 l2 H1 IH1 H2 IH2|k b l e1 e2 T1 T2 H IH]; intros j e E T.
  - destruct j; discriminate E.
  - destruct j as [|[|]]; cbn in E; try discriminate E. injection E as <-. contradiction.
  - destruct (Nat.lt_ge_cases j (length l1)) as [L|L].
    + rewrite nth_error_app1 in E by auto. destruct (IH1 _ _ E T) as (y & I). exists y. apply in_or_app. auto.
    + rewrite nth_error_app2 in E by auto. destruct (IH2 _ _ E T) as (y & I). exists y. apply in_or_app. right.
      replace (k + length l1 + (j - length l1)) with (k + j) in I by lia. exact I.
  - destruct j as [|j]; cbn in E; [injection E as <-; rewrite T in T1; discriminate T1|]. destruct (Nat.lt_ge_cases j (length l)) as [L|L].
    + rewrite nth_error_app1 in E by auto. destruct (IH _ _ E T) as (x & I). exists x. right. replace (k + S j) with (S k + j) by lia. exact I.
    + rewrite nth_error_app2 in E by auto. destruct (j - length l) as [|[|]] eqn:D; cbn in E; try discriminate E. exists k. left. f_equal. lia.
Qed.

(** If no block is recorded by half, exactly the recorded blocks are shown, and nothing is left open or closed besides. *)
Lemma clean_shown r k b l : shape k b l -> (forall x y, In (x, y) b -> r x = r y) -> forall st,
  open_after st (rec r k l) = st /\ (forall x y, In (x, y) (shown st (rec r k l)) <-> In (x, y) b /\ r x = true /\ r y = true).
Proof.
  induction 1 as [k|k e0 N1 N2|k b1 l1 b2 l2 H1 IH1 H2 IH2|k b l e1 e2 T1 T2 H IH]; intros C st.
  - cbn. split; auto. intros; split; intros X; [contradiction|destruct X; contradiction].
  - apply N.eqb_neq in N1, N2. cbn. destruct (r k); cbn; rewrite ?N1, ?N2; (split; [reflexivity|]; intros; split; intros X; [contradiction|destruct X; contradiction]).
  - destruct (IH1 (fun x y I => C x y (in_or_app _ _ _ (or_introl I))) st) as (O1 & S1).
    destruct (IH2 (fun x y I => C x y (in_or_app _ _ _ (or_intror I))) st) as (O2 & S2).
    rewrite rec_app, open_after_app, O1. split; auto. intros x y. rewrite shown_app, O1, !in_app_iff, S1, S2. tauto.
  - assert (Cb : forall x y, In (x, y) b -> r x = r y) by (intros x y I; apply C; right; exact I).
    assert (Ck : r k = r (S k + length l)) by (apply C; left; reflexivity).
    cbn [rec]. rewrite rec_app. cbn [rec]. rewrite app_nil_r. rewrite <- Ck. destruct (r k) eqn:RK.
    + destruct (IH Cb (k :: st)) as (O1 & S1). cbn [app shown open_after]. rewrite T1, N.eqb_refl. rewrite open_after_app, O1. cbn [open_after].
      rewrite T2. cbn. split; auto. intros x y. rewrite shown_app, O1, in_app_iff, S1. cbn [shown]. rewrite T2. cbn.
      split; [intros [I|[I|[]]]|intros ([I|I] & Rx & Ry)]; [tauto| |right; left; exact I|left; auto].
      injection I as <- <-. split; [left; reflexivity|]. split; auto.
    + destruct (IH Cb st) as (O1 & S1). cbn [app]. rewrite app_nil_r. split; auto. intros x y. rewrite S1. split; [intros (I & X); split; [right; exact I|exact X]|].
      intros ([I|I] & Rx & Ry); [injection I as <- <-; congruence|auto].
Qed.

Lemma block_shown r k b l : shape k b l -> forall x y, In (x, y) b -> r x = true -> r y = true ->
  (forall x' y', In (x', y') b -> x < x' -> y' < y -> r x' = r y') -> forall st, In (x, y) (shown st (rec r k l)).
Proof.
  induction 1 as [k|k e0 N1 N2|k b1 l1 b2 l2 H1 IH1 H2 IH2|k b l e1 e2 T1 T2 H IH]; intros x y I Rx Ry C st; try contradiction.
  - rewrite rec_app, shown_app. apply in_or_app. apply in_app_or in I as [I|I].
    + left. apply IH1; auto. intros x' y' I'. apply C. apply in_or_app. auto.
    + right. apply IH2; auto. intros x' y' I'. apply C. apply in_or_app. auto.
  - cbn [rec]. rewrite rec_app. cbn [rec]. rewrite app_nil_r. destruct I as [I|I].
    + injection I as <- <-. rewrite Rx. cbn [app shown]. rewrite T1, N.eqb_refl. rewrite shown_app.
      assert (Cb : forall x' y', In (x', y') b -> r x' = r y').
      { intros x' y' I'. pose proof (shape_range _ _ _ H _ _ I') as Q. apply C; [right; exact I'|lia|lia]. }
      destruct (clean_shown r _ _ _ H Cb (k :: st)) as (O1 & S1). rewrite O1. change (S k + length l) with (S (k + length l)) in *. rewrite Ry. cbn [app shown]. rewrite T2. cbn.
      apply in_or_app. right. left. reflexivity.
    + rewrite shown_app. apply in_or_app. right. rewrite shown_app. apply in_or_app. left. apply IH; auto. intros x' y' I'. apply C. right. exact I'.
Qed.

(** ** What is shown *)
Lemma rec_in r l : forall k j e, In (j, e) (rec r k l) -> r j = true /\ k <= j /\ nth_error l (j - k) = Some e.
Proof.
  induction l as [|e0 l IH]; intros k j e I; [contradiction|]. cbn in I. apply in_app_or in I as [I|I].
  - destruct (r k) eqn:R; [|contradiction]. destruct I as [I|[]]. injection I as <- <-. rewrite Nat.sub_diag. auto.
  - apply IH in I as (A & B & C). split; auto. split; [lia|]. replace (j - k) with (S (j - S k)) by lia. exact C.
Qed.

(** The pairs a reader shows are begins that were open or in the record, and ends in the record. *)
Lemma shown_sound l : forall st x y, In (x, y) (shown st l) ->
  (In x st \/ exists e, In (x, e) l /\ te_type e = SCOPE_ENTRY) /\ exists e, In (y, e) l /\ te_type e = SCOPE_EXIT.
Proof.
  induction l as [|[k e] l IH]; intros st x y I; [contradiction|]. cbn [shown] in I. destruct (N.eqb (te_type e) SCOPE_ENTRY) eqn:T1.
  - apply N.eqb_eq in T1. apply IH in I as (A & e2 & B & B'). split; [|exists e2; split; [right|]; auto].
    destruct A as [[A|A]|(e1 & A & A')]; [subst; right; exists e; split; [left|]; auto|left; auto|right; exists e1; split; [right|]; auto].
  - assert (K : forall st', (forall z, In z st' -> In z st) -> In (x, y) (shown st' l) ->
       (In x st \/ exists e', In (x, e') ((k, e) :: l) /\ te_type e' = SCOPE_ENTRY) /\ exists e', In (y, e') ((k, e) :: l) /\ te_type e' = SCOPE_EXIT).
    { intros st' IN J. apply IH in J as (A & e2 & B & B'). split; [|exists e2; split; [right|]; auto].
      destruct A as [A|(e1 & A & A')]; [left; auto|right; exists e1; split; [right|]; auto]. }
    destruct (N.eqb (te_type e) SCOPE_EXIT) eqn:T2.
    + destruct st as [|b st']; [apply (K []); auto|]. destruct I as [I|I]; [|apply (K st'); auto using in_cons].
      injection I as <- <-. apply N.eqb_eq in T2. split; [left; left; reflexivity|]. exists e. split; [left|]; auto.
    + apply (K st); auto.
Qed.

(** Positions go up. *)
Definition above (k : nat) (l : list (nat * tev)) : Prop := forall j e, In (j, e) l -> k <= j.
Lemma rec_above r l : forall k, above k (rec r k l).
Proof. intros k j e I. apply rec_in in I. lia. Qed.

(** Each end closes one begin, each begin is closed by one end, and ends come after their begins. *)
Lemma shown_rec r l : forall k st, (forall z, In z st -> z < k) -> NoDup st ->
  (forall x y y', In (x, y) (shown st (rec r k l)) -> In (x, y') (shown st (rec r k l)) -> y = y') /\
  (forall x x' y, In (x, y) (shown st (rec r k l)) -> In (x', y) (shown st (rec r k l)) -> x = x') /\
  (forall x y, In (x, y) (shown st (rec r k l)) -> x < y /\ k <= y).
Proof.
  induction l as [|e l IH]; intros k st B ND; cbn [rec].
  - cbn. repeat split; intros; contradiction.
  - destruct (r k); cbn [app].
    2:{ destruct (IH (S k) st) as (A1 & A2 & A3); auto. { intros z I. apply B in I. lia. } split; auto. split; auto. intros x y I. apply A3 in I. lia. }
    cbn [shown]. destruct (N.eqb (te_type e) SCOPE_ENTRY).
    { destruct (IH (S k) (k :: st)) as (A1 & A2 & A3).
      - intros z [<-|I]; [lia|apply B in I; lia].
      - constructor; auto. intros I. apply B in I. lia.
      - split; auto. split; auto. intros x y I. apply A3 in I. lia. }
    assert (K : forall st', (forall z, In z st' -> In z st) -> NoDup st' ->
       (forall x y y', In (x, y) (shown st' (rec r (S k) l)) -> In (x, y') (shown st' (rec r (S k) l)) -> y = y') /\
       (forall x x' y, In (x, y) (shown st' (rec r (S k) l)) -> In (x', y) (shown st' (rec r (S k) l)) -> x = x') /\
       (forall x y, In (x, y) (shown st' (rec r (S k) l)) -> x < y /\ S k <= y)).
    { intros st' IN ND'. apply IH; auto. intros z I. apply IN, B in I. lia. }
    destruct (N.eqb (te_type e) SCOPE_EXIT).
    + destruct st as [|b st'].
      * destruct (K [] (fun z I => I) ND) as (A1 & A2 & A3). split; auto. split; auto. intros x y I. apply A3 in I. lia.
      * inversion_clear ND as [|? ? NI ND']. destruct (K st' (fun z I => in_cons _ _ _ I) ND') as (A1 & A2 & A3).
        assert (Q : forall y, ~ In (b, y) (shown st' (rec r (S k) l))).
        { intros y I. apply shown_sound in I as ([I|(e1 & I & _)] & _); [contradiction|]. apply rec_in in I as (_ & I & _). pose proof (B b (in_eq _ _)). lia. }
        assert (Q2 : forall x, ~ In (x, k) (shown st' (rec r (S k) l))) by (intros x I; apply A3 in I; lia).
        split; [|split].
        -- intros x y y' [I|I] [I'|I'].
           ++ injection I as <- <-. injection I' as <-. reflexivity.
           ++ injection I as <- <-. destruct (Q _ I').
           ++ injection I' as <- <-. destruct (Q _ I).
           ++ eauto.
        -- intros x x' y [I|I] [I'|I'].
           ++ injection I as <- <-. injection I' as <-. reflexivity.
           ++ injection I as <- <-. destruct (Q2 _ I').
           ++ injection I' as <- <-. destruct (Q2 _ I).
           ++ eauto.
        -- intros x y [I|I]; [injection I as <- <-; pose proof (B b (in_eq _ _)); lia|apply A3 in I; lia].
    + destruct (K st (fun z I => I) ND) as (A1 & A2 & A3). split; auto. split; auto. intros x y I. apply A3 in I. lia.
Qed.

(** ** One stretch *)
Definition convex (r : nat -> bool) : Prop := forall x y z, x <= y -> y <= z -> r x = true -> r z = true -> r y = true.

Theorem convex_shown r k b l : shape k b l -> convex r -> forall x y,
  In (x, y) (shown [] (rec r k l)) <-> In (x, y) b /\ r x = true /\ r y = true.
Proof.
  intros H CV. assert (BACK : forall x y, In (x, y) b -> r x = true -> r y = true -> In (x, y) (shown [] (rec r k l))).
  { intros x y I Rx Ry. apply (block_shown r _ _ _ H); auto. intros x' y' I' L1 L2. pose proof (shape_range _ _ _ H _ _ I') as Q.
    rewrite (CV x x' y), (CV x y' y); auto; lia. }
  destruct (shown_rec r l k []) as (F1 & F2 & F3); [intros z []|constructor|].
  intros x y. split; [|intros (I & Rx & Ry); auto]. intros I.
  pose proof (shown_sound _ _ _ _ I) as ([[]|(e1 & I1 & T1)] & e2 & I2 & T2).
  apply rec_in in I1 as (R1 & K1 & N1). apply rec_in in I2 as (R2 & K2 & N2).
  destruct (shape_begin _ _ _ H _ _ N1 T1) as (y' & B1). destruct (shape_end _ _ _ H _ _ N2 T2) as (x' & B2).
  replace (k + (x - k)) with x in B1 by lia. replace (k + (y - k)) with y in B2 by lia.
  destruct (r x') eqn:R'.
  - rewrite (F2 _ _ _ I (BACK _ _ B2 R' R2)) in *. auto.
  - exfalso. pose proof (shape_range _ _ _ H _ _ B1) as Q1. pose proof (shape_range _ _ _ H _ _ B2) as Q2. destruct (F3 _ _ I) as (L & _).
    assert (X : x' < x). { destruct (Nat.le_gt_cases x x') as [LE|]; auto. rewrite (CV x x' y) in R'; auto; [discriminate R'|lia]. }
    assert (Y : y' < y). { destruct (shape_laminar _ _ _ H _ _ _ _ B1 B2) as [?|[?|[?|[?|?]]]]; lia. }
    assert (Ry' : r y' = true) by (apply (CV x y' y); auto; lia).
    pose proof (F1 _ _ _ I (BACK _ _ B1 R1 Ry')). lia.
Qed.

(** ** The exact condition *)
Lemma shape_split k b l : shape k b l -> forall x y, In (x, y) b -> exists l1 e1 l2 e2 l3, l = l1 ++ e1 :: l2 ++ e2 :: l3 /\
  k + length l1 = x /\ S x + length l2 = y /\ te_type e1 = SCOPE_ENTRY /\ te_type e2 = SCOPE_EXIT.
Proof.
  induction 1 as [k|k e0 N1 N2|k b1 l1 b2 l2 H1 IH1 H2 IH2|k b l e1 e2 T1 T2 H IH]; intros x y I; try contradiction.
  - apply in_app_or in I as [I|I].
    + destruct (IH1 _ _ I) as (a1 & e1 & a2 & e2 & a3 & -> & A & B & C & D). exists a1, e1, a2, e2, (a3 ++ l2). split; [|auto].
      rewrite <- !app_assoc. cbn. rewrite <- app_assoc. reflexivity.
    + destruct (IH2 _ _ I) as (a1 & e1 & a2 & e2 & a3 & -> & A & B & C & D). exists (l1 ++ a1), e1, a2, e2, a3. rewrite app_length, <- app_assoc. split; auto. split; [lia|auto].
  - destruct I as [I|I].
    + injection I as <- <-. exists [], e1, l, e2, []. cbn. repeat split; auto; lia.
    + destruct (IH _ _ I) as (a1 & f1 & a2 & f2 & a3 & -> & A & B & C & D). exists (e1 :: a1), f1, a2, f2, (a3 ++ [e2]). split; [|cbn [length]; split; [lia|auto]].
      rewrite <- !app_assoc. cbn. rewrite <- app_assoc. reflexivity.
Qed.

Lemma between_none x y l : (forall j e, In (j, e) l -> j <= x \/ y <= j) -> between x y l = [].
Proof.
  induction l as [|[j e] l IH]; intros H; auto. unfold between in *. cbn [filter fst]. destruct (H j e (in_eq _ _)) as [L|L].
  - replace (x <? j) with false by (symmetry; apply Nat.ltb_ge; auto). cbn [andb]. apply IH. intros j' e' I. apply (H j' e'). right. exact I.
  - replace (j <? y) with false by (symmetry; apply Nat.ltb_ge; auto). rewrite andb_false_r. apply IH. intros j' e' I. apply (H j' e'). right. exact I.
Qed.
Lemma between_all x y l : (forall j e, In (j, e) l -> x < j /\ j < y) -> between x y l = l.
Proof.
  induction l as [|[j e] l IH]; intros H; auto. unfold between in *. cbn [filter fst]. destruct (H j e (in_eq _ _)) as [L1 L2].
  apply Nat.ltb_lt in L1, L2. rewrite L1, L2. cbn [andb]. f_equal. apply IH. intros j' e' I. apply (H j' e'). right. exact I.
Qed.
Lemma between_app x y l l' : between x y (l ++ l') = between x y l ++ between x y l'.
Proof. apply filter_app. Qed.

(** [u] are the begins opened since [x]. *)
Lemma depth_walk x st l : forall u,
  match depth (length u) l with
  | Some d => exists u', open_after (u ++ x :: st) l = u' ++ x :: st /\ length u' = d /\ (forall z, In z u' -> In z u \/ exists e, In (z, e) l)
  | None => exists z e, In (z, e) l /\ In (x, z) (shown (u ++ x :: st) l)
  end.
Proof.
  induction l as [|[k e] l IH]; intros u; cbn [depth open_after shown].
  - exists u. auto.
  - destruct (N.eqb (te_type e) SCOPE_ENTRY).
    + specialize (IH (k :: u)). cbn [length app] in IH. destruct (depth (S (length u)) l) as [d|].
      * destruct IH as (u' & O & L & Q). exists u'. split; auto. split; auto. intros z I. destruct (Q _ I) as [[<-|J]|(e' & J)]; [right; exists e; left; reflexivity|auto|right; exists e'; right; exact J].
      * destruct IH as (z & e' & I & J). exists z, e'. split; [right; exact I|exact J].
    + destruct (N.eqb (te_type e) SCOPE_EXIT).
      * destruct u as [|b u]; cbn [length app tl].
        -- exists k, e. split; left; reflexivity.
        -- specialize (IH u). destruct (depth (length u) l) as [d|].
           ++ destruct IH as (u' & O & L & Q). exists u'. split; auto. split; auto. intros z I. destruct (Q _ I) as [J|(e' & J)]; [left; right; exact J|right; exists e'; right; exact J].
           ++ destruct IH as (z & e' & I & J). exists z, e'. split; [right; exact I|right; exact J].
      * specialize (IH u). destruct (depth (length u) l) as [d|].
        -- destruct IH as (u' & O & L & Q). exists u'. split; auto. split; auto. intros z I. destruct (Q _ I) as [J|(e' & J)]; [left; exact J|right; exists e'; right; exact J].
        -- destruct IH as (z & e' & I & J). exists z, e'. split; [right; exact I|exact J].
Qed.

Theorem exact_shown r k b l : shape k b l -> forall x y st, In (x, y) b -> r x = true -> r y = true -> (forall z, In z st -> z < k) -> NoDup st ->
  (In (x, y) (shown st (rec r k l)) <-> evens_out x y (rec r k l)).
Proof.
  intros H x y st I Rx Ry B ND. destruct (shown_rec r l k st B ND) as (F1 & F2 & _).
  destruct (shape_split _ _ _ H _ _ I) as (l1 & e1 & l2 & e2 & l3 & -> & X & Y & T1 & T2).
  assert (SP : rec r k (l1 ++ e1 :: l2 ++ e2 :: l3) = rec r k l1 ++ (x, e1) :: rec r (S x) l2 ++ (y, e2) :: rec r (S y) l3).
  { rewrite rec_app. cbn [rec]. rewrite X, Rx, rec_app. cbn [rec app]. rewrite Y, Ry. reflexivity. }
  rewrite SP in *. set (A := rec r k l1) in *. set (M := rec r (S x) l2) in *. set (C := rec r (S y) l3) in *.
  assert (RM : forall j e, In (j, e) M -> x < j /\ j < y).
  { intros j e J. apply rec_in in J as (_ & J1 & J2). assert (j - S x < length l2) by (apply nth_error_Some; congruence). lia. }
  assert (RA : forall j e, In (j, e) A -> j <= x \/ y <= j).
  { intros j e J. apply rec_in in J as (_ & J1 & J2). assert (j - k < length l1) by (apply nth_error_Some; congruence). lia. }
  assert (RC : forall j e, In (j, e) C -> j <= x \/ y <= j) by (intros j e J; apply rec_in in J; lia).
  assert (BT : between x y (A ++ (x, e1) :: M ++ (y, e2) :: C) = M).
  { rewrite between_app, (between_none _ _ A RA). change ((x, e1) :: M ++ (y, e2) :: C) with ([(x, e1)] ++ M ++ [(y, e2)] ++ C). rewrite !between_app, (between_all _ _ M RM), (between_none _ _ C RC).
    rewrite (between_none x y [(x, e1)]), (between_none x y [(y, e2)]); [cbn; now rewrite app_nil_r| |]; intros j e [J|[]]; injection J as <- <-; lia. }
  unfold evens_out. rewrite BT. clear BT.
  assert (EX : forall q, In q (shown (x :: open_after st A) (M ++ (y, e2) :: C)) -> In q (shown st (A ++ (x, e1) :: M ++ (y, e2) :: C))).
  { intros q Q. rewrite shown_app. apply in_or_app. right. cbn [shown]. rewrite T1, N.eqb_refl. exact Q. }
  pose proof (depth_walk x (open_after st A) M []) as W. cbn [length app] in W. destruct (depth 0 M) as [d|].
  - destruct W as (u' & O & L & Q). destruct u' as [|z u'].
    + cbn in L. subst d. split; auto. intros _. apply EX. rewrite shown_app, O. apply in_or_app. right. cbn [shown app]. rewrite T2. cbn. left. reflexivity.
    + cbn in L. split; [|intros D; injection D as D; lia]. intros J. exfalso.
      assert (Z : In (z, y) (shown st (A ++ (x, e1) :: M ++ (y, e2) :: C))).
      { apply EX. rewrite shown_app, O. apply in_or_app. right. cbn [shown app]. rewrite T2. cbn. left. reflexivity. }
      pose proof (F2 _ _ _ J Z) as ->. destruct (Q z (in_eq _ _)) as [[]|(e' & J')]. apply RM in J'. lia.
  - split; [|discriminate]. intros J. exfalso. destruct W as (z & e & J1 & J2).
    assert (Z : In (x, z) (shown st (A ++ (x, e1) :: M ++ (y, e2) :: C))) by (apply EX; rewrite shown_app; apply in_or_app; left; exact J2).
    pose proof (F1 _ _ _ J Z) as ->. apply RM in J1. lia.
Qed.

(** ** The statements about programs *)
Lemma blocks_bl p : blocks p = bl 0 p. Proof. reflexivity. Qed.
Lemma recorded_fn m p : length m = length (events_of p) -> recorded 0 m (events_of p) = rec (fun j => nth j m false) 0 (ev p).
Proof. intros L. apply recorded_rec; auto. Qed.

Theorem block_right p m x y st : scoped_only p -> length m = length (events_of p) ->
  In (x, y) (blocks p) -> in_record m x -> in_record m y ->
  (forall x' y', In (x', y') (blocks p) -> x < x' -> y' < y -> ~ halved m (x', y')) ->
  In (x, y) (shown st (recorded 0 m (events_of p))).
Proof.
  intros SO L I Rx Ry C. rewrite recorded_fn by auto. apply (block_shown _ _ _ _ (program_shape p 0 SO)); auto.
  intros x' y' I' L1 L2. specialize (C _ _ I' L1 L2). unfold halved in C. cbn in C. destruct (nth x' m false), (nth y' m false); auto; now destruct C.
Qed.

Theorem block_exact p m x y : scoped_only p -> length m = length (events_of p) ->
  In (x, y) (blocks p) -> in_record m x -> in_record m y ->
  (In (x, y) (shown [] (recorded 0 m (events_of p))) <-> evens_out x y (recorded 0 m (events_of p))).
Proof.
  intros SO L I Rx Ry. rewrite recorded_fn by auto. apply (exact_shown (fun j => nth j m false) _ _ _ (program_shape p 0 SO)); auto; [intros z []|constructor].
Qed.

Theorem none_halved p m st : scoped_only p -> length m = length (events_of p) -> (forall b, In b (blocks p) -> ~ halved m b) ->
  forall x y, In (x, y) (shown st (recorded 0 m (events_of p))) <-> In (x, y) (blocks p) /\ in_record m x /\ in_record m y.
Proof.
  intros SO L C. rewrite recorded_fn by auto. apply (clean_shown (fun j => nth j m false) _ _ _ (program_shape p 0 SO)).
  intros x' y' I'. specialize (C _ I'). unfold halved in C. cbn in C. destruct (nth x' m false), (nth y' m false); auto; now destruct C.
Qed.

Lemma stretch_convex m : one_stretch m -> convex (fun j => nth j m false).
Proof.
  intros (a & b & c & ->). assert (N : forall j, nth j (repeat false a ++ repeat true b ++ repeat false c) false = (a <=? j) && (j <? a + b)).
  { intros j. destruct (a <=? j) eqn:A.
    - apply Nat.leb_le in A. rewrite app_nth2; rewrite repeat_length; auto. destruct (j <? a + b) eqn:B.
      + apply Nat.ltb_lt in B. rewrite app_nth1 by (rewrite repeat_length; lia). cbn. rewrite nth_indep with (d' := true) by (rewrite repeat_length; lia). apply nth_repeat.
      + apply Nat.ltb_ge in B. rewrite app_nth2 by (rewrite repeat_length; lia). cbn. apply nth_repeat.
    - apply Nat.leb_gt in A. rewrite app_nth1 by (rewrite repeat_length; lia). cbn. apply nth_repeat. }
  intros x y z L1 L2 Rx Rz. rewrite N in *. apply andb_true_iff in Rx as (X1 & _). apply andb_true_iff in Rz as (_ & Z2).
  apply Nat.leb_le in X1. apply Nat.ltb_lt in Z2. apply andb_true_iff. split; [apply Nat.leb_le|apply Nat.ltb_lt]; lia.
Qed.

Theorem stretch_right p m : scoped_only p -> length m = length (events_of p) -> one_stretch m ->
  forall x y, In (x, y) (shown [] (recorded 0 m (events_of p))) <-> In (x, y) (blocks p) /\ in_record m x /\ in_record m y.
Proof.
  intros SO L O. rewrite recorded_fn by auto. apply convex_shown; [apply program_shape; auto|]. now apply stretch_convex.
Qed.

(** The blocks are what a reader of the whole record sees. *)
Theorem whole_record p : scoped_only p -> forall x y, In (x, y) (shown [] (recorded 0 (repeat true (length (events_of p))) (events_of p))) <-> In (x, y) (blocks p).
Proof.
  intros SO x y. rewrite stretch_right; auto; [|apply repeat_length|exists 0, (length (events_of p)), 0; cbn; now rewrite app_nil_r].
  split; [tauto|]. intros I. split; auto. pose proof (shape_range _ _ _ (program_shape p 0 SO) _ _ I) as Q. change (ev p) with (events_of p) in Q.
  unfold in_record. assert (K : forall j, j < length (events_of p) -> nth j (repeat true (length (events_of p))) false = true).
  { intros j J. rewrite nth_indep with (d' := true) by (rewrite repeat_length; lia). apply nth_repeat. }
  split; apply K; lia.
Qed.

(** ** Two stretches *)
(** Block 1 from time 10 to 50 with block 2 from 20 to 30 inside; somebody switches tracing off and on again remotely. *)
Definition w_prog : sprog := SScope 1 10 50 (SScope 2 20 30 SSkip).
Definition w_toggled : list cfg_label :=
  [GTrace 0 (TpEntry 1) 10 true; GRemote (CChange true false []); GTrace 0 (TpEntry 2) 20 true; GRemote (CChange true true []); GTrace 0 (TpExit 2) 30 true; GTrace 0 (TpExit 1) 50 true].
Theorem wrong_duration : exists s0 s,
  grun [GStart 7] cfg0 = Some s0 /\ runs_program 0 w_prog w_toggled /\ grun w_toggled s0 = Some s /\
  marks 0 w_toggled s0 = [true; false; true; true] /\
  blocks w_prog = [(0, 3); (1, 2)] /\
  shown [] (recorded 0 (marks 0 w_toggled s0) (events_of w_prog)) = [(0, 2)].
Proof.
  eexists. eexists. split; [vm_compute; reflexivity|]. split; [vm_compute; reflexivity|]. split; [vm_compute; reflexivity|]. vm_compute. auto.
Qed.

(** Also with the scoped settings alone, of another thread. *)
Definition w_scoped : list cfg_label :=
  [GTrace 0 (TpEntry 1) 10 true; GScope 1 true false; GTrace 0 (TpEntry 2) 20 true; GUnscope 1; GTrace 0 (TpExit 2) 30 true; GTrace 0 (TpExit 1) 50 true].
Theorem wrong_duration_scoped : exists s0 s,
  grun [GStart 7; GStart 8] cfg0 = Some s0 /\ runs_program 0 w_prog w_scoped /\ grun w_scoped s0 = Some s /\
  marks 0 w_scoped s0 = [true; false; true; true] /\
  shown [] (recorded 0 (marks 0 w_scoped s0) (events_of w_prog)) = [(0, 2)].
Proof.
  eexists. eexists. split; [vm_compute; reflexivity|]. split; [vm_compute; reflexivity|]. split; [vm_compute; reflexivity|]. vm_compute. auto.
Qed.

(** ** Cases that meet the hypotheses *)
Definition ex_toggle_prog : sprog := SScope 1 10 90 (SSeq (SScope 2 20 30 (SPoint (TpMark LThread 9) 25)) (STry (SScope 3 40 60 (SScope 4 45 50 SThrow)) (SPoint (TpCount 5 7) 70))).
Definition ex_late_on : list cfg_label :=
  GRemote (CChange true false []) :: firstn 2 (fst (calls_of 0 ex_toggle_prog)) ++ GSetProcess true :: skipn 2 (fst (calls_of 0 ex_toggle_prog)).
Example ex_one_stretch : match grun [GStart 7] cfg0 with
  | Some s0 => runs_program 0 ex_toggle_prog ex_late_on /\
      marks 0 ex_late_on s0 = repeat false 2 ++ repeat true 8 ++ repeat false 0 /\
      blocks ex_toggle_prog = [(0, 9); (1, 3); (4, 7); (5, 6)] /\
      shown [] (recorded 0 (marks 0 ex_late_on s0) (events_of ex_toggle_prog)) = [(5, 6); (4, 7)]
  | None => False end.
Proof. vm_compute. auto. Qed.
Example ex_scoped_only : scoped_only ex_toggle_prog /\ Forall not_late ex_late_on.
Proof. split; [cbn; auto 10|]. repeat constructor. Qed.
