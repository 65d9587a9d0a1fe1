(** Proofs of C95. *)
From Coq Require Import List Arith Bool Lia.
Import ListNotations.
From Verif Require Import UnixSystem_model UnixSystem_proofs PyTrace_model PyTrace_spec.

(** ** Reading *)
Lemma reading_app l1 : forall open l2, reading open (l1 ++ l2) = match reading open l1 with Some o => reading o l2 | None => None end.
Proof.
  induction l1 as [|[c [|]] l1 IH]; intros open l2; cbn; auto. destruct open as [|o open]; [reflexivity|]. destruct (o =? c); auto.
Qed.
Lemma of_thread_app b t l1 l2 : of_thread b t (l1 ++ l2) = of_thread b t l1 ++ of_thread b t l2.
Proof. unfold of_thread. now rewrite filter_app, map_app. Qed.

(** ** Stacks *)
Definition boundary (it : item) : bool := match it with KGen _ | KShut _ => true | _ => false end.
Fixpoint open_of (st : list item) : list nat :=
  match st with
  | [] => []
  | KMid c _ :: r | KExit c :: r | KOut c :: r => c :: open_of r
  | _ :: r => open_of r
  end.
(** There is a block or a function between here and the generator. *)
Fixpoint inside (st : list item) : bool :=
  match st with
  | [] => false
  | it :: r => match it with KGen _ | KShut _ => false | KMid _ _ | KExit _ | KOut _ | KFrame => true | _ => inside r end
  end.
Definition quiet (ss : list stmt) : bool := negb (existsb has_yield ss).
Definition quiet_item (it : item) : bool := match it with KDo ss | KCatch ss | KMid _ ss => quiet ss | _ => true end.
Definition tidy_item (it : item) : bool := match it with KDo ss | KCatch ss => forallb tidy ss | KMid _ ss => quiet ss && forallb tidy ss | _ => true end.
Fixpoint okst (st : list item) : Prop :=
  match st with
  | [] => True
  | it :: r => tidy_item it = true /\ (inside r = true -> quiet_item it = true) /\ okst r
  end.
Definition nob (st : list item) : Prop := forallb (fun it => negb (boundary it)) st = true.

Lemma open_app a b : open_of (a ++ b) = open_of a ++ open_of b.
Proof. induction a as [|[] a IH]; cbn; auto; now rewrite IH. Qed.
Lemma inside_cut k it r : nob k -> boundary it = true -> inside (k ++ it :: r) = inside k.
Proof. unfold nob. intros H B. induction k as [|x k IH]; cbn; [destruct it; auto; discriminate|]. cbn in H. apply andb_true_iff in H as (H1 & H2). destruct x; cbn; auto; discriminate. Qed.
Lemma okst_cut k it r : nob k -> boundary it = true -> (okst (k ++ it :: r) <-> okst k /\ okst r).
Proof.
  intros N B. induction k as [|x k IH]; cbn [app okst].
  - split; [tauto|]. intros (_ & O). split; [destruct it; auto; discriminate|]. split; [|exact O]. intros _. destruct it; auto; discriminate.
  - unfold nob in N. cbn in N. apply andb_true_iff in N as (N1 & N2). rewrite (inside_cut k it r N2 B). rewrite (IH N2). tauto.
Qed.
Lemma split_spec r : forall seg g sh rest, split_gen r = Some (seg, g, sh, rest) -> r = seg ++ (if sh then KShut g else KGen g) :: rest /\ nob seg.
Proof.
  unfold nob. induction r as [|it r IH]; intros seg g sh rest H; [discriminate|]. cbn in H.
  destruct it; try discriminate; try (injection H as <- <- <- <-; split; reflexivity);
    (destruct (split_gen r) as [[[[seg0 g0] sh0] rest0]|] eqn:E; [|discriminate]; injection H as <- <- <- <-; destruct (IH _ _ _ _ eq_refl) as (-> & N); split; [reflexivity|exact N]).
Qed.
Lemma inside_open seg it r : nob seg -> boundary it = true -> inside (seg ++ it :: r) = false -> open_of seg = [].
Proof.
  intros N B. rewrite (inside_cut _ _ _ N B). clear it B. unfold nob in N. induction seg as [|x seg IH]; [reflexivity|]. cbn in N. apply andb_true_iff in N as (N1 & N2). destruct x; cbn; auto; discriminate.
Qed.

(** ** The invariant *)
Section Inv.
Variable fn : nat -> list stmt.
Variable b : nat.
Hypothesis fn_tidy : forall f, forallb tidy (fn f) = true.

Record inv (s : state) : Prop := {
  i_backend : p_backend s = b;
  i_stack : forall t, okst (p_stack s t);
  i_read : forall t, reading [] (of_thread b t (p_log s)) = Some (open_of (p_stack s t));
  i_gens : forall g k, p_gens s g = Some (Suspended k) -> okst k /\ nob k /\ open_of k = [] }.

Lemma tidy_quiet c ss : tidy (SWith c ss) = true -> quiet ss = true /\ forallb tidy ss = true.
Proof. cbn. intros H. apply andb_true_iff in H. exact H. Qed.

Lemma of_emit t c e bk t' : of_thread b t' [{| e_thread := t; e_backend := bk; e_ctx := c; e_entry := e |}] = if (t =? t') && (bk =? b) then [(c, e)] else [].
Proof. unfold of_thread. cbn. destruct ((t =? t') && (bk =? b)); reflexivity. Qed.

(** A change of the stack of one thread by which no block opens or closes. *)
Lemma inv_sets t st m s : inv s -> okst st -> open_of st = open_of (p_stack s t) -> inv (sets t st m s).
Proof.
  intros [I1 I2 I3 I4] O E. constructor; cbn [sets p_stack p_mode p_gens p_backend p_log]; [exact I1| | |exact I4]; intros t'; unfold upd; destruct (Nat.eqb_spec t' t) as [->|N]; auto. rewrite E. auto.
Qed.
Lemma inv_gen g x s : inv s -> (forall k, x = Suspended k -> okst k /\ nob k /\ open_of k = []) -> inv (set_gen g x s).
Proof.
  intros [I1 I2 I3 I4] H. constructor; cbn [set_gen p_stack p_mode p_gens p_backend p_log]; [exact I1|exact I2|exact I3|]. intros g' k. unfold upd. destruct (Nat.eqb_spec g' g) as [->|N]; [|apply I4]. intros Q. injection Q as ->. auto.
Qed.

Lemma step_go t s s' : inv s -> step fn (Go t) s = Some s' -> inv s'.
Proof.
  intros I H. pose proof I as [I1 I2 I3 I4]. cbn [step] in H. pose proof (I2 t) as O. pose proof (I3 t) as R. destruct (p_stack s t) as [|it r] eqn:Es; [discriminate|]. destruct O as (T & Qt & Or).
  assert (SK : forall m, open_of r = open_of (it :: r) -> inv (sets t r m s)) by (intros m Q; apply inv_sets; auto; now rewrite Es).
  destruct it as [ss|c bd|c|c|h| |g|g].
  - assert (Sk : forall m, inv (sets t r m s)) by (intros m; apply SK; reflexivity). destruct (p_mode s t); try (injection H as <-; apply Sk). destruct ss as [|x ss]; [injection H as <-; apply Sk|].
    cbn [tidy_item forallb] in T. apply andb_true_iff in T as (Tx & Ts). cbn [quiet_item] in Qt.
    assert (Or' : okst (KDo ss :: r)). { split; [exact Ts|]. split; [|exact Or]. intros J. specialize (Qt J). cbn. unfold quiet in *. cbn in Qt. apply negb_true_iff, orb_false_iff in Qt as (_ & ->). reflexivity. }
    assert (Qx : inside r = true -> has_yield x = false). { intros J. specialize (Qt J). unfold quiet in Qt. cbn in Qt. apply negb_true_iff, orb_false_iff in Qt. tauto. }
    assert (P : forall m, inv (sets t (KDo ss :: r) m s)) by (intros m; apply inv_sets; auto; now rewrite Es).
    assert (E0 : open_of (KDo ss :: r) = open_of (p_stack s t)) by now rewrite Es.
    unfold does in H. destruct x as [c bd|f| | |bd h| |g f|g|g|b'].
    + injection H as <-. destruct (tidy_quiet _ _ Tx) as (Q & Tb). constructor; cbn [sets emits p_stack p_mode p_gens p_backend p_log]; [exact I1| | |exact I4].
      * intros t'. unfold upd. destruct (t' =? t); [|auto]. cbn [okst tidy_item quiet_item]. rewrite Q, Tb. auto.
      * intros t'. rewrite of_thread_app, reading_app, I3, I1, of_emit, Nat.eqb_refl, andb_true_r. unfold upd. destruct (Nat.eqb_spec t' t) as [->|N].
        -- rewrite Nat.eqb_refl. cbn. rewrite Es. reflexivity.
        -- rewrite (proj2 (Nat.eqb_neq t t')) by congruence. reflexivity.
    + injection H as <-. destruct (existsb has_yield (fn f)) eqn:Y; [apply P|]. apply inv_sets; auto. cbn [okst tidy_item quiet_item inside]. rewrite fn_tidy. unfold quiet. rewrite Y. auto.
    + injection H as <-. apply P.
    + injection H as <-. apply P.
    + injection H as <-. cbn [tidy] in Tx. apply andb_true_iff in Tx as (T1 & T2). apply inv_sets; auto.
      assert (Qb : inside r = true -> quiet bd = true /\ quiet h = true). { intros J. specialize (Qx J). cbn in Qx. apply orb_false_iff in Qx as (Q1 & Q2). unfold quiet. now rewrite Q1, Q2. }
      split; [exact T1|]. split; [intros J; apply (Qb J)|]. split; [exact T2|]. split; [intros J; apply (Qb J)|]. exact Or'.
    + destruct (inside r) eqn:In; [specialize (Qx eq_refl); discriminate|].
      destruct (split_gen (KDo ss :: r)) as [[[[seg g] sh] rest]|] eqn:Sp; [|discriminate]. destruct (split_spec _ _ _ _ _ Sp) as (Eq & Nb).
      assert (Bd : boundary (if sh then KShut g else KGen g) = true) by (destruct sh; reflexivity).
      assert (In' : inside (seg ++ (if sh then KShut g else KGen g) :: rest) = false) by (rewrite <- Eq; exact In).
      pose proof (inside_open _ _ _ Nb Bd In') as Op. pose proof Or' as Or2. rewrite Eq in Or2. apply (okst_cut _ _ _ Nb Bd) in Or2 as (Ok1 & Ok2).
      assert (E2 : open_of rest = open_of (p_stack s t)). { rewrite <- E0, Eq, open_app, Op. destruct sh; reflexivity. }
      assert (G : forall m, inv (sets t rest m (set_gen g (Suspended seg) s))). { intros m. apply inv_sets; auto. apply inv_gen; auto. intros k Q. injection Q as <-. auto. }
      destruct sh; injection H as <-; apply G.
    + assert (G : inv (sets t (KDo ss :: r) Falls (set_gen g (Suspended [KDo (fn f)]) s))).
      { apply inv_sets; auto. apply inv_gen; auto. intros k Q. injection Q as <-. split; [|split; reflexivity]. cbn. rewrite fn_tidy. split; [reflexivity|split; [discriminate|exact Logic.I]]. }
      destruct (p_gens s g) as [[k| |]|]; try discriminate; injection H as <-; auto.
      apply inv_sets; auto. split; [reflexivity|]. split; [reflexivity|]. exact Or'.
    + destruct (p_gens s g) as [[k| |]|] eqn:Eg; injection H as <-; auto. destruct (I4 _ _ Eg) as (K1 & K2 & K3). apply inv_sets; auto.
      * apply inv_gen; auto. discriminate.
      * apply okst_cut; auto.
      * rewrite open_app, K3. exact E0.
    + destruct (p_gens s g) as [[k| |]|] eqn:Eg; injection H as <-; auto. destruct (I4 _ _ Eg) as (K1 & K2 & K3). apply inv_sets; auto.
      * apply inv_gen; auto. discriminate.
      * apply okst_cut; auto.
      * rewrite open_app, K3. exact E0.
    + discriminate.
  - injection H as <-. cbn [tidy_item] in T. apply andb_true_iff in T as (Q & Tb). apply inv_sets; auto; [|now rewrite Es]. split; [exact Tb|]. split; [intros _; exact Q|]. split; [reflexivity|]. split; [reflexivity|exact Or].
  - injection H as <-. apply inv_sets; auto; [|now rewrite Es]. split; [reflexivity|]. split; [reflexivity|exact Or].
  - injection H as <-. constructor; cbn [sets emits p_stack p_mode p_gens p_backend p_log]; [exact I1| | |exact I4].
    + intros t'. unfold upd. destruct (t' =? t); auto.
    + intros t'. rewrite of_thread_app, reading_app, I3, I1, of_emit, Nat.eqb_refl, andb_true_r. unfold upd. destruct (Nat.eqb_spec t' t) as [->|N].
      * rewrite Nat.eqb_refl, Es. cbn. now rewrite Nat.eqb_refl.
      * rewrite (proj2 (Nat.eqb_neq t t')) by congruence. reflexivity.
  - assert (Sk : forall m, inv (sets t r m s)) by (intros m; apply SK; reflexivity). destruct (p_mode s t); injection H as <-; try apply Sk. apply inv_sets; auto; [|now rewrite Es]. split; [exact T|]. split; [exact Qt|exact Or].
  - injection H as <-. apply SK. reflexivity.
  - injection H as <-. apply inv_sets; [|exact Or|cbn; now rewrite Es]. apply inv_gen; auto. discriminate.
  - injection H as <-. apply inv_sets; [|exact Or|cbn; now rewrite Es]. apply inv_gen; auto. discriminate.
Qed.
Lemma step_interrupt t s s' : inv s -> match p_stack s t with it :: _ => inside_call it = false | [] => True end -> step fn (Interrupt t) s = Some s' -> inv s'.
Proof.
  intros I C H. pose proof (i_stack _ I t) as O. cbn [step] in H. destruct (p_stack s t) as [|it r] eqn:Es; [discriminate|].
  assert (G : inv (sets t (it :: r) Raises s)) by (apply inv_sets; auto; now rewrite Es). destruct it; cbn in C; try discriminate; injection H as <-; exact G.
Qed.
Lemma run_inv xs : forall s s', inv s -> calm fn xs s -> run fn xs s = Some s' -> inv s'.
Proof.
  induction xs as [|x xs IH]; intros s s' I C H; [now injection H as <-|]. cbn in H, C. destruct C as (C1 & C2). destruct (step fn x s) as [s1|] eqn:E; [|discriminate].
  apply (IH s1 s'); auto. destruct x; [eapply step_go; eauto|eapply step_interrupt; eauto].
Qed.
Lemma inv_start main : (forall t, forallb tidy (main t) = true) -> inv (start main b).
Proof. intros H. constructor; cbn; auto; try discriminate. intros t. rewrite H. split; [reflexivity|split; [discriminate|exact I]]. Qed.

Theorem nests main xs s : (forall t, forallb tidy (main t) = true) -> calm fn xs (start main b) -> run fn xs (start main b) = Some s ->
  forall t, exists open, reading [] (of_thread b t (p_log s)) = Some open /\ (finished t s -> open = []).
Proof.
  intros Hm C H t. pose proof (run_inv xs _ _ (inv_start main Hm) C H) as I. exists (open_of (p_stack s t)). split; [apply (i_read _ I)|]. unfold finished. intros ->. reflexivity.
Qed.
End Inv.

(** ** Programs without generators *)
Section Tree.
Variable fn : nat -> list stmt.
Variable b : nat.
Hypothesis fn_plain : forall f, forallb plain (fn f) = true.

Lemma plain_no_yield : forall s, plain s = true -> has_yield s = false.
Proof.
  fix IH 1. intros s. destruct s; cbn; auto; try discriminate.
  - intros H. induction body as [|x l IHl]; [reflexivity|]. cbn in *. apply andb_true_iff in H as (H1 & H2). rewrite (IH x H1). auto.
  - intros H. apply andb_true_iff in H as (H1 & H2). apply orb_false_iff. split.
    + clear H2. induction body as [|x l IHl]; [reflexivity|]. cbn in *. apply andb_true_iff in H1 as (A & B). rewrite (IH x A). auto.
    + clear H1. induction handler as [|x l IHl]; [reflexivity|]. cbn in *. apply andb_true_iff in H2 as (A & B). rewrite (IH x A). auto.
Qed.
Lemma fn_no_yield f : existsb has_yield (fn f) = false.
Proof. pose proof (fn_plain f) as H. induction (fn f) as [|x l IH]; [reflexivity|]. cbn in *. apply andb_true_iff in H as (A & B). now rewrite (plain_no_yield x A), IH. Qed.

Definition plain_item (it : item) : bool := match it with KDo ss | KCatch ss | KMid _ ss => forallb plain ss | KGen _ | KShut _ => false | _ => true end.
(** What is still going to happen. *)
Definition frame (o : outcome) : outcome := match o with Raises => Raises | _ => Falls end.
Fixpoint ahead (st : list item) (o : outcome) (e : list (nat * bool)) (fin : outcome) : Prop :=
  match st with
  | [] => e = [] /\ fin = o
  | KDo ss :: r => match o with
                   | Falls => exists e1 o1 e2, execs fn ss e1 o1 /\ ahead r o1 e2 fin /\ e = e1 ++ e2
                   | _ => ahead r o e fin
                   end
  | KMid c bd :: r => exists e1 o1 e2, execs fn bd e1 o1 /\ ahead r o1 e2 fin /\ e = e1 ++ (c, false) :: e2
  | KExit c :: r | KOut c :: r => exists e2, ahead r o e2 fin /\ e = (c, false) :: e2
  | KCatch h :: r => match o with
                     | Raises => exists e1 o1 e2, execs fn h e1 o1 /\ ahead r o1 e2 fin /\ e = e1 ++ e2
                     | _ => ahead r o e fin
                     end
  | KFrame :: r => ahead r (frame o) e fin
  | KGen _ :: _ | KShut _ :: _ => False
  end.
(** After a statement with the events [e1] and the end [o1], the rest. *)
Lemma ahead_after x ss r e1 o1 e2 fin : exec fn x e1 o1 -> ahead (KDo ss :: r) o1 e2 fin -> ahead (KDo (x :: ss) :: r) Falls (e1 ++ e2) fin.
Proof.
  intros X A. cbn [ahead]. destruct o1.
  - cbn [ahead] in A. destruct A as (e3 & o3 & e4 & A1 & A2 & ->). exists (e1 ++ e3), o3, e4. split; [econstructor; eauto|]. split; [exact A2|]. now rewrite app_assoc.
  - cbn [ahead] in A. exists e1, Raises, e2. split; [apply E_stop; [exact X|discriminate]|]. auto.
  - cbn [ahead] in A. exists e1, Returns, e2. split; [apply E_stop; [exact X|discriminate]|]. auto.
Qed.

Definition plain_st (s : state) : Prop := p_backend s = b /\ forall t, forallb plain_item (p_stack s t) = true.

Lemma other_thread t t' s s' : t' <> t -> step fn (Go t') s = Some s' -> p_stack s' t = p_stack s t /\ p_mode s' t = p_mode s t /\ of_thread b t (p_log s') = of_thread b t (p_log s).
Proof.
  intros N H. assert (Q : t =? t' = false) by (apply Nat.eqb_neq; congruence). assert (Q' : t' =? t = false) by (apply Nat.eqb_neq; congruence).
  assert (K : forall st m s0, p_stack s0 t = p_stack s t -> p_mode s0 t = p_mode s t -> of_thread b t (p_log s0) = of_thread b t (p_log s) -> Some (sets t' st m s0) = Some s' ->
    p_stack s' t = p_stack s t /\ p_mode s' t = p_mode s t /\ of_thread b t (p_log s') = of_thread b t (p_log s)).
  { intros st m s0 A B C D. injection D as <-. cbn. unfold upd. rewrite Q. auto. }
  assert (Em : forall c e, of_thread b t (p_log (emits t' c e s)) = of_thread b t (p_log s)).
  { intros c e. cbn [emits p_log]. rewrite of_thread_app, (of_emit b). rewrite Q'. cbn. apply app_nil_r. }
  cbn [step] in H. destruct (p_stack s t') as [|it r]; [discriminate|]. destruct it as [ss| | | | | | |]; try (eapply K; [..|exact H]; try reflexivity; auto; apply Em).
  - destruct (p_mode s t'), ss as [|x ss]; try (eapply K; [..|exact H]; try reflexivity; auto; fail). unfold does in H. destruct x; try (eapply K; [..|exact H]; try reflexivity; auto; apply Em).
    + destruct (existsb has_yield (fn f)); (eapply K; [..|exact H]; reflexivity).
    + destruct (split_gen _) as [[[[seg g] []] rest]|]; [| |discriminate]; (eapply K; [..|exact H]; reflexivity).
    + destruct (p_gens s g) as [[| |]|]; try discriminate; (eapply K; [..|exact H]; reflexivity).
    + destruct (p_gens s g) as [[| |]|]; (eapply K; [..|exact H]; reflexivity).
    + destruct (p_gens s g) as [[| |]|]; (eapply K; [..|exact H]; reflexivity).
  - destruct (p_mode s t'); (eapply K; [..|exact H]; reflexivity).
Qed.

Lemma step_plain t s s' : plain_st s -> step fn (Go t) s = Some s' -> plain_st s'.
Proof.
  intros (Pb & P) H. pose proof (P t) as Pt. cbn [step] in H. destruct (p_stack s t) as [|it r]; [discriminate|]. cbn [forallb] in Pt. apply andb_true_iff in Pt as (Pi & Pr).
  assert (K : forall st m s0, p_backend s0 = b -> p_stack s0 = p_stack s -> forallb plain_item st = true -> Some (sets t st m s0) = Some s' -> plain_st s').
  { intros st m s0 B0 A0 A B. injection B as <-. split; [exact B0|]. intros t'. cbn. rewrite A0. unfold upd. destruct (t' =? t); auto. }
  destruct it as [ss|c bd|c|c|h| |g|g]; cbn [plain_item] in Pi; try discriminate.
  - destruct (p_mode s t), ss as [|x ss]; try (eapply (K r); [exact Pb|reflexivity|exact Pr|exact H]). cbn [forallb] in Pi. apply andb_true_iff in Pi as (Px & Ps).
    assert (Pr' : forallb plain_item (KDo ss :: r) = true) by (cbn [forallb plain_item]; now rewrite Ps).
    unfold does in H. destruct x; cbn [plain] in Px; try discriminate.
    + refine (K _ _ _ _ _ _ H); [exact Pb|reflexivity|]. cbn [forallb plain_item] in *. now rewrite Px, Pr'.
    + rewrite fn_no_yield in H. refine (K _ _ _ _ _ _ H); [exact Pb|reflexivity|]. cbn [forallb plain_item] in *. now rewrite fn_plain, Pr'.
    + refine (K _ _ _ _ _ _ H); [exact Pb|reflexivity|exact Pr'].
    + refine (K _ _ _ _ _ _ H); [exact Pb|reflexivity|exact Pr'].
    + apply andb_true_iff in Px as (P1 & P2). refine (K _ _ _ _ _ _ H); [exact Pb|reflexivity|]. cbn [forallb plain_item] in *. now rewrite P1, P2, Pr'.
  - refine (K _ _ _ _ _ _ H); [exact Pb|reflexivity|]. cbn [forallb plain_item]. now rewrite Pi.
  - refine (K _ _ _ _ _ _ H); [exact Pb|reflexivity|exact Pr].
  - refine (K _ _ _ _ _ _ H); [exact Pb|reflexivity|exact Pr].
  - destruct (p_mode s t); refine (K _ _ _ _ _ _ H); try exact Pb; try reflexivity; try exact Pr. cbn [forallb plain_item]. now rewrite Pi.
  - refine (K _ _ _ _ _ _ H); [exact Pb|reflexivity|exact Pr].
Qed.

(** If what is ahead after a step is known, it is known before. *)
Lemma step_ahead t s s' e fin : plain_st s -> step fn (Go t) s = Some s' -> ahead (p_stack s' t) (p_mode s' t) e fin ->
  exists e0, of_thread b t (p_log s') = of_thread b t (p_log s) ++ e0 /\ ahead (p_stack s t) (p_mode s t) (e0 ++ e) fin.
Proof.
  intros (Pb & P) H A. pose proof (P t) as Pt. cbn [step] in H. destruct (p_stack s t) as [|it r]; [discriminate|]. cbn [forallb] in Pt. apply andb_true_iff in Pt as (Pi & Pr).
  assert (K : forall st m, Some (sets t st m s) = Some s' -> of_thread b t (p_log s') = of_thread b t (p_log s) ++ [] /\ ahead st m e fin).
  { intros st m B. injection B as <-. cbn [sets p_stack p_mode p_log] in *. unfold upd in A. rewrite Nat.eqb_refl in A. rewrite app_nil_r. auto. }
  assert (Em : forall st m c en, Some (sets t st m (emits t c en s)) = Some s' -> of_thread b t (p_log s') = of_thread b t (p_log s) ++ [(c, en)] /\ ahead st m e fin).
  { intros st m c en B. injection B as <-. cbn [sets emits p_stack p_mode p_log] in *. unfold upd in A. rewrite Nat.eqb_refl in A. rewrite of_thread_app, of_emit, Nat.eqb_refl, Pb, Nat.eqb_refl. auto. }
  destruct it as [ss|c bd|c|c|h| |g|g]; cbn [plain_item] in Pi; try discriminate.
  - destruct (p_mode s t) eqn:Em0, ss as [|x ss].
    + destruct (K _ _ H) as (L & A'). exists []. split; [exact L|]. cbn [ahead app]. exists [], Falls, e. split; [constructor|]. auto.
    + cbn [forallb] in Pi. apply andb_true_iff in Pi as (Px & Ps). unfold does in H. destruct x; cbn [plain] in Px; try discriminate.
      * destruct (Em _ _ _ _ H) as (L & A'). exists [(c, true)]. split; [exact L|]. cbn [ahead] in A'. destruct A' as (e1 & o1 & e2 & X & Y & ->).
        cbn [app]. replace ((c, true) :: e1 ++ (c, false) :: e2) with (((c, true) :: e1 ++ [(c, false)]) ++ e2) by (cbn; now rewrite <- app_assoc). eapply ahead_after; [constructor; exact X|exact Y].
      * rewrite fn_no_yield in H. destruct (K _ _ H) as (L & A'). exists []. split; [exact L|]. cbn [ahead] in A'. destruct A' as (e1 & o1 & e2 & X & Y & ->). cbn [app]. eapply ahead_after; [apply E_call; exact X|exact Y].
      * destruct (K _ _ H) as (L & A'). exists []. split; [exact L|]. exact (ahead_after _ _ _ _ _ _ _ (E_raise fn) A').
      * destruct (K _ _ H) as (L & A'). exists []. split; [exact L|]. exact (ahead_after _ _ _ _ _ _ _ (E_return fn) A').
      * destruct (K _ _ H) as (L & A'). exists []. split; [exact L|]. cbn [ahead] in A'. destruct A' as (e1 & o1 & e2 & X & Y & ->). cbn [app]. destruct o1.
        -- eapply ahead_after; [apply (E_try fn _ _ _ _ X); discriminate|exact Y].
        -- destruct Y as (e3 & o3 & e4 & Y1 & Y2 & ->). rewrite app_assoc. eapply ahead_after; [eapply E_catch; [exact X|exact Y1]|exact Y2].
        -- eapply ahead_after; [apply (E_try fn _ _ _ _ X); discriminate|exact Y].
    + destruct (K _ _ H) as (L & A'). exists []. split; [exact L|exact A'].
    + destruct (K _ _ H) as (L & A'). exists []. split; [exact L|exact A'].
    + destruct (K _ _ H) as (L & A'). exists []. split; [exact L|exact A'].
    + destruct (K _ _ H) as (L & A'). exists []. split; [exact L|exact A'].
  - destruct (K _ _ H) as (L & A'). exists []. split; [exact L|]. cbn [ahead] in *. cbn [app]. destruct A' as (e1 & o1 & e2 & X & (e3 & Y & ->) & ->). exists e1, o1, e3. auto.
  - destruct (K _ _ H) as (L & A'). exists []. split; [exact L|exact A'].
  - destruct (Em _ _ _ _ H) as (L & A'). exists [(c, false)]. split; [exact L|]. cbn [ahead]. exists e. auto.
  - destruct (p_mode s t) eqn:Em0; destruct (K _ _ H) as (L & A'); exists []; (split; [exact L|exact A']).
  - destruct (K _ _ H) as (L & A'). exists []. split; [exact L|exact A'].
Qed.

Theorem run_tree xs : forall s s', Forall (fun x => exists t, x = Go t) xs -> plain_st s -> run fn xs s = Some s' -> forall t, finished t s' ->
  exists e, of_thread b t (p_log s') = of_thread b t (p_log s) ++ e /\ ahead (p_stack s t) (p_mode s t) e (p_mode s' t).
Proof.
  induction xs as [|x xs IH]; intros s s' F P H t Fin.
  - injection H as <-. exists []. rewrite app_nil_r. split; [reflexivity|]. rewrite Fin. cbn. auto.
  - inversion F as [|? ? (t' & ->) F']; subst. cbn [run] in H. destruct (step fn (Go t') s) as [s1|] eqn:E; [|discriminate]. destruct (IH s1 s' F' (step_plain _ _ _ P E) H t Fin) as (e & L & A).
    destruct (Nat.eq_dec t' t) as [->|N].
    + destruct (step_ahead _ _ _ _ _ P E A) as (e0 & L0 & A0). exists (e0 ++ e). split; [now rewrite L, L0, app_assoc|exact A0].
    + destruct (other_thread t t' s s1 N E) as (Q1 & Q2 & Q3). exists e. rewrite <- Q1, <- Q2, <- Q3. auto.
Qed.
Theorem tree main xs s : (forall t, forallb plain (main t) = true) -> Forall (fun x => exists t, x = Go t) xs -> run fn xs (start main b) = Some s ->
  forall t, finished t s -> execs fn (main t) (of_thread b t (p_log s)) (p_mode s t).
Proof.
  intros Hm F H t Fin. assert (P : plain_st (start main b)) by (split; [reflexivity|]; intros t'; cbn; rewrite Hm; reflexivity).
  destruct (run_tree xs _ _ F P H t Fin) as (e & L & A). cbn in L. rewrite L. cbn [ahead start p_stack p_mode] in A. destruct A as (e1 & o1 & e2 & X & (-> & ->) & ->). rewrite app_nil_r. exact X.
Qed.
End Tree.

(** A decorated function traces the whole of the function. *)
Lemma exec_inv_call fn f e o : exec fn (SCall f) e o -> exists o', execs fn (fn f) e o' /\ o = match o' with Raises => Raises | _ => Falls end.
Proof. intros H. inversion H; subst. eauto. Qed.
Lemma traced_lemma fn f c f' e o : fn f = traced c f' -> exec fn (SCall f) e o -> exists e', exec fn (SCall f') e' o /\ e = (c, true) :: e' ++ [(c, false)].
Proof.
  intros Hf H. apply exec_inv_call in H as (o1 & H & ->). rewrite Hf in H. unfold traced in H.
  assert (W : forall e1 o2, exec fn (SWith c [SCall f'; SReturn]) e1 o2 -> exists e' o3, exec fn (SCall f') e' o3 /\ o3 <> Returns /\ e1 = (c, true) :: e' ++ [(c, false)] /\ o2 = (match o3 with Raises => Raises | _ => Returns end)).
  { intros e1 o2 W. inversion W as [c0 b0 e0 o0 B| | | | |]; subst. inversion B as [|s ss ea eb o3 Ea Eb|s ss ea o3 Ea Na]; subst.
    - exists ea, Falls. split; [exact Ea|]. split; [discriminate|]. inversion Eb as [|s ss ec ed o4 Ec Ed|s ss ec o4 Ec Nc]; subst; inversion Ec; subst. now rewrite app_nil_r.
    - exists e0. apply exec_inv_call in Ea as Ea'. destruct Ea' as (o4 & _ & Eo). exists o2. split; [exact Ea|]. split; [destruct o4; subst; discriminate|]. split; [reflexivity|]. destruct o4; subst; try reflexivity; contradiction. }
  inversion H as [|s ss ea eb o3 Ea Eb|s ss ea o3 Ea Na]; subst.
  - destruct (W _ _ Ea) as (e' & o4 & X & _ & _ & Q). destruct o4; discriminate.
  - destruct (W _ _ Ea) as (e' & o4 & X & N & -> & Q). exists e'. split; [|reflexivity]. subst o1. destruct o4; auto. contradiction.
Qed.
