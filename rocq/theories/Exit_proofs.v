(** Proofs for C109. *)
From Coq Require Import List Arith Bool Lia.
From Verif Require Import Exit_model Exit_spec.
Import ListNotations.

Lemma inb_true : forall A dec (x : A) l, inb dec x l = true <-> In x l.
Proof. intros. unfold inb. destruct (in_dec dec x l); split; intros; auto; discriminate. Qed.
Lemma inb_false : forall A dec (x : A) l, inb dec x l = false <-> ~ In x l.
Proof. intros. unfold inb. destruct (in_dec dec x l); split; intros; auto; try discriminate. contradiction. Qed.
Lemma in_add : forall i t l, In i (add t l) <-> i = t \/ In i l.
Proof.
  intros. unfold add. destruct (inb Nat.eq_dec t l) eqn:E.
  - apply inb_true in E. split; auto. intros [->|H]; auto.
  - cbn. split; intros [H|H]; auto.
Qed.
Lemma in_drop : forall i t l, In i (drop t l) <-> In i l /\ i <> t.
Proof.
  intros. unfold drop. rewrite filter_In, negb_true_iff, Nat.eqb_neq. reflexivity.
Qed.
Lemma threads_same : forall t h s, g_threads (set_thread t h s) t = h.
Proof. intros. cbn. now rewrite Nat.eqb_refl. Qed.
Lemma threads_other : forall i t h s, i <> t -> g_threads (set_thread t h s) i = g_threads s i.
Proof. intros. cbn. destruct (i =? t) eqn:E; auto. apply Nat.eqb_eq in E. contradiction. Qed.

(** Thread-local objects of the library rest on others made before them. *)
Definition deps (o : tls) : list tls :=
  match o with
  | TBuffer f => [TPtr f; TLeaveBuffer]
  | TState f => [TPtr f; TBuffer f; TLeaveBuffer; TLeaveState]
  | _ => []
  end.
Definition rests (o : tls) (r : list tls) : Prop := incl (deps o) r /\ (o = TLeaveBuffer -> exists f, In (TPtr f) r).
Fixpoint ordered (l : list tls) : Prop := match l with [] => True | o :: r => rests o r /\ ordered r end.
Definition fresh (o : tls) (h : thread) : Prop := ~ In o (h_live h) /\ ~ In o (h_gone h).

Lemma ordered_deps : forall l o, ordered l -> In o l -> incl (deps o) l.
Proof.
  induction l as [|x l IH]; intros o O I; [contradiction|]. destruct O as [[R _] O]. destruct I as [->|I].
  - intros d D. right. now apply R.
  - intros d D. right. exact (IH o O I d D).
Qed.

Record okay (s : state) : Prop := {
  ok_ordered : forall t, ordered (h_live (g_threads s t));
  ok_nodup : forall t, NoDup (h_live (g_threads s t) ++ h_gone (g_threads s t));
  ok_statics : NoDup (g_live s ++ g_gone s);
  ok_active : forall t, In t (g_active s) <-> In TLeaveBuffer (h_live (g_threads s t));
  ok_orphans : forall t, In t (g_orphans s) <-> In TLeaveBuffer (h_gone (g_threads s t));
  ok_once : NoDup (g_orphans s);
  ok_named : forall t, In t (g_named s) <-> In TLeaveName (h_live (g_threads s t));
  ok_log : forall e, In e (g_log s) -> snd e = true;
  ok_unborn : forall t, h_phase (g_threads s t) = Unborn -> h_live (g_threads s t) = [] /\ h_gone (g_threads s t) = [];
  ok_running : forall t, h_phase (g_threads s t) = Running -> h_gone (g_threads s t) = [];
  ok_over : forall t, t <> 0 -> h_phase (g_threads s t) = Over -> h_live (g_threads s t) = []
}.

Lemma okay0 : okay state0.
Proof.
  constructor; cbn; intros; try (now constructor); try tauto.
Qed.

(** What a use of the library changes. *)
Record grows (t : nat) (s s' : state) : Prop := {
  gr_other : forall i, i <> t -> g_threads s' i = g_threads s i;
  gr_phase : h_phase (g_threads s' t) = h_phase (g_threads s t);
  gr_gone : h_gone (g_threads s' t) = h_gone (g_threads s t);
  gr_live : exists n, h_live (g_threads s' t) = n ++ h_live (g_threads s t) /\ forall k, ~ In (TUser k) n;
  gr_slive : exists n, g_live s' = n ++ g_live s /\ forall k, ~ In (SUser k) n;
  gr_sgone : g_gone s' = g_gone s;
  gr_log : forall e, In e (g_log s) -> In e (g_log s')
}.
Lemma grows_refl : forall t s, grows t s s.
Proof. intros. constructor; auto; exists []; cbn; auto. Qed.
Lemma grows_trans : forall t a b c, grows t a b -> grows t b c -> grows t a c.
Proof.
  intros t a b c [O1 P1 G1 [n1 [L1 U1]] [m1 [S1 V1]] Z1 H1] [O2 P2 G2 [n2 [L2 U2]] [m2 [S2 V2]] Z2 H2]. constructor; try congruence; auto.
  - intros i I. rewrite (O2 i I). auto.
  - exists (n2 ++ n1). rewrite L2, L1, app_assoc. split; auto. intros k H. apply in_app_or in H as [H|H]; [eapply U2|eapply U1]; eauto.
  - exists (m2 ++ m1). rewrite S2, S1, app_assoc. split; auto. intros k H. apply in_app_or in H as [H|H]; [eapply V2|eapply V1]; eauto.
Qed.
Lemma grows_in : forall t a b o, grows t a b -> In o (h_live (g_threads a t)) -> In o (h_live (g_threads b t)).
Proof. intros t a b o G I. destruct (gr_live _ _ _ G) as (n & E & _). rewrite E. apply in_or_app. auto. Qed.
Lemma grows_sin : forall t a b o, grows t a b -> In o (g_live a) -> In o (g_live b).
Proof. intros t a b o G I. destruct (gr_slive _ _ _ G) as (n & E & _). rewrite E. apply in_or_app. auto. Qed.

Definition sfree (o : stat) : Prop := forall k, o <> SUser k.
Definition tfree (o : tls) : Prop := forall k, o <> TUser k.

(** Passing the definition of a static object. *)
Lemma static_push : forall o s, okay s -> ~ In o (g_live s) -> ~ In o (g_gone s) -> okay (with_statics (o :: g_live s) (g_gone s) s).
Proof.
  intros o s [] N1 N2. constructor; cbn; auto. constructor; auto. intro H. apply in_app_or in H as [H|H]; contradiction.
Qed.
Lemma grows_static : forall t o s, sfree o -> grows t s (with_statics (o :: g_live s) (g_gone s) s).
Proof.
  intros. constructor; auto; cbn.
  - exists []. cbn. auto.
  - exists [o]. cbn. split; auto. intros k [E|[]]. exact (H k E).
Qed.
Lemma def_static_ok : forall t o s s', okay s -> def_static o plain s = Some s' -> sfree o ->
  okay s' /\ grows t s s' /\ In o (g_live s') /\ g_threads s' = g_threads s.
Proof.
  intros t o s s' K D F. unfold def_static, plain, bind in D. destruct (inb stat_dec o (g_gone s)) eqn:E1; [discriminate|].
  destruct (inb stat_dec o (g_live s)) eqn:E2.
  - injection D as <-. apply inb_true in E2. auto using grows_refl.
  - injection D as <-. apply inb_false in E1. apply inb_false in E2. split; [apply static_push; auto|]. split; [apply grows_static; auto|].
    split; cbn; auto.
Qed.
Lemma def_static_some : forall o s, ~ In o (g_gone s) -> exists s', def_static o plain s = Some s'.
Proof.
  intros. unfold def_static, plain, bind. destruct (inb stat_dec o (g_gone s)) eqn:E; [apply inb_true in E; contradiction|].
  destruct (inb stat_dec o (g_live s)); eauto.
Qed.
Lemma def_static_none : forall o i s, In o (g_gone s) -> def_static o i s = None.
Proof. intros. unfold def_static. destruct (inb stat_dec o (g_gone s)) eqn:E; auto. apply inb_false in E. contradiction. Qed.

(** Making a thread-local object. *)
Lemma grows_tls : forall t o s, tfree o -> grows t s (push_tls t o s).
Proof.
  intros. unfold push_tls. constructor; try (rewrite threads_same); auto.
  - intros. now apply threads_other.
  - exists [o]. cbn. split; auto. intros k [E|[]]. exact (H k E).
  - exists []. cbn. auto.
Qed.
Lemma push_phase : forall t o s i, h_phase (g_threads (push_tls t o s) i) = h_phase (g_threads s i).
Proof. intros. unfold push_tls, set_thread. cbn. destruct (i =? t) eqn:E; auto. apply Nat.eqb_eq in E. now subst. Qed.
Lemma push_gone : forall t o s i, h_gone (g_threads (push_tls t o s) i) = h_gone (g_threads s i).
Proof. intros. unfold push_tls, set_thread. cbn. destruct (i =? t) eqn:E; auto. apply Nat.eqb_eq in E. now subst. Qed.
Lemma push_live : forall t o s i, h_live (g_threads (push_tls t o s) i) = if i =? t then o :: h_live (g_threads s i) else h_live (g_threads s i).
Proof. intros. unfold push_tls, set_thread. cbn. destruct (i =? t) eqn:E; auto. apply Nat.eqb_eq in E. now subst. Qed.

Definition works (t : nat) (s : state) : Prop :=
  h_phase (g_threads s t) = Running \/ h_phase (g_threads s t) = Unwinding \/ (h_phase (g_threads s t) = Over /\ t = 0).
Lemma push_ok : forall t o s, okay s -> works t s ->
  fresh o (g_threads s t) -> rests o (h_live (g_threads s t)) -> o <> TLeaveBuffer -> o <> TLeaveName -> okay (push_tls t o s).
Proof.
  intros t o s [] P [N1 N2] R NB NN.
  assert (IN : forall x i, x <> o -> In x (h_live (g_threads (push_tls t o s) i)) <-> In x (h_live (g_threads s i))).
  { intros x i X. rewrite push_live. destruct (i =? t); [|reflexivity]. cbn. split; auto. intros [E|E]; auto. congruence. }
  constructor; try (now (cbn; auto)).
  - intros i. rewrite push_live. destruct (i =? t) eqn:E; auto. apply Nat.eqb_eq in E. subst i. cbn. auto.
  - intros i. rewrite push_live, push_gone. destruct (i =? t) eqn:E; auto. apply Nat.eqb_eq in E. subst i. cbn. constructor; auto.
    intro H. apply in_app_or in H as [H|H]; contradiction.
  - intros i. rewrite IN by congruence. apply ok_active0.
  - intros i. rewrite push_gone. apply ok_orphans0.
  - intros i. rewrite IN by congruence. apply ok_named0.
  - intros i. rewrite push_phase, push_live, push_gone. intros U. destruct (i =? t) eqn:E; auto. apply Nat.eqb_eq in E. subst i.
    destruct P as [P|[P|[P Z]]]; rewrite U in P; (discriminate P || contradiction).
  - intros i. rewrite push_phase, push_gone. auto.
  - intros i I. rewrite push_phase, push_live. intros U. destruct (i =? t) eqn:E; auto. apply Nat.eqb_eq in E. subst i.
    destruct P as [P|[P|[P Z]]]; rewrite U in P; (discriminate P || contradiction).
Qed.

Lemma works_grows : forall t s s', grows t s s' -> works t s -> works t s'.
Proof. intros t s s' G W. unfold works. now rewrite (gr_phase _ _ _ G). Qed.

(** The two that come with an entry in a table. *)
Lemma leave_buffer_ok : forall t s, okay s -> works t s -> (exists f, In (TPtr f) (h_live (g_threads s t))) -> forall s1,
  def_tls t TLeaveBuffer plain s = Some s1 ->
  let s' := with_tables (add t (g_active s1)) (g_orphans s1) (g_states s1) (g_named s1) s1 in
  okay s' /\ grows t s s' /\ In TLeaveBuffer (h_live (g_threads s' t)).
Proof.
  intros t s K W F s1 D s'. unfold def_tls, plain, bind in D. destruct (inb tls_dec TLeaveBuffer (h_gone (g_threads s t))) eqn:E1; [discriminate|].
  apply inb_false in E1. destruct (inb tls_dec TLeaveBuffer (h_live (g_threads s t))) eqn:E2.
  - injection D as <-. apply inb_true in E2. split; [|split; auto].
    + destruct K. constructor; cbn; auto. intros i. rewrite in_add, ok_active0. split; auto. intros [->|H]; auto.
    + destruct (grows_refl t s). constructor; auto.
  - injection D as <-. apply inb_false in E2. split; [|split].
    + destruct K. constructor; try (now (cbn; auto)).
      * intros i. cbn [g_threads s' with_tables]. rewrite push_live. destruct (i =? t) eqn:E; auto. apply Nat.eqb_eq in E. subst i. cbn. split; auto.
        split; auto. intros d [].
      * intros i. cbn [g_threads s' with_tables]. rewrite push_live, push_gone. destruct (i =? t) eqn:E; auto. apply Nat.eqb_eq in E. subst i. cbn. constructor; auto.
        intro H. apply in_app_or in H as [H|H]; contradiction.
      * intros i. cbn [g_threads s' with_tables g_active]. rewrite in_add, push_live. change (g_active (push_tls t TLeaveBuffer s)) with (g_active s).
        rewrite ok_active0. destruct (i =? t) eqn:E.
        -- apply Nat.eqb_eq in E. subst i. cbn. tauto.
        -- apply Nat.eqb_neq in E. tauto.
      * intros i. cbn [g_threads s' with_tables g_orphans]. rewrite push_gone. apply ok_orphans0.
      * intros i. cbn [g_threads s' with_tables g_named]. rewrite push_live. change (g_named (push_tls t TLeaveBuffer s)) with (g_named s). rewrite ok_named0.
        destruct (i =? t); [|reflexivity]. cbn. split; auto. intros [E|E]; auto. discriminate E.
      * intros i. cbn [g_threads s' with_tables]. rewrite push_phase, push_live, push_gone. intros U. destruct (i =? t) eqn:E; auto. apply Nat.eqb_eq in E. subst i.
        destruct W as [W|[W|[W Z]]]; rewrite U in W; (discriminate W || contradiction).
      * intros i. cbn [g_threads s' with_tables]. rewrite push_phase, push_gone. auto.
      * intros i I. cbn [g_threads s' with_tables]. rewrite push_phase, push_live. intros U. destruct (i =? t) eqn:E; auto. apply Nat.eqb_eq in E. subst i.
        destruct W as [W|[W|[W Z]]]; rewrite U in W; (discriminate W || contradiction).
    + assert (G : grows t s (push_tls t TLeaveBuffer s)) by (apply grows_tls; intros k; discriminate). destruct G. constructor; auto.
    + cbn [g_threads s' with_tables]. rewrite push_live, Nat.eqb_refl. now left.
Qed.
Lemma leave_name_ok : forall t s, okay s -> works t s -> forall s1,
  def_tls t TLeaveName plain s = Some s1 ->
  let s' := with_tables (g_active s1) (g_orphans s1) (g_states s1) (add t (g_named s1)) s1 in
  okay s' /\ grows t s s' /\ In TLeaveName (h_live (g_threads s' t)).
Proof.
  intros t s K W s1 D s'. unfold def_tls, plain, bind in D. destruct (inb tls_dec TLeaveName (h_gone (g_threads s t))) eqn:E1; [discriminate|].
  apply inb_false in E1. destruct (inb tls_dec TLeaveName (h_live (g_threads s t))) eqn:E2.
  - injection D as <-. apply inb_true in E2. split; [|split; auto].
    + destruct K. constructor; cbn; auto. intros i. rewrite in_add, ok_named0. split; auto. intros [->|H]; auto.
    + destruct (grows_refl t s). constructor; auto.
  - injection D as <-. apply inb_false in E2. split; [|split].
    + destruct K. constructor; try (now (cbn; auto)).
      * intros i. cbn [g_threads s' with_tables]. rewrite push_live. destruct (i =? t) eqn:E; auto. apply Nat.eqb_eq in E. subst i. cbn. split; auto.
        split; [intros d []|]. intro X. discriminate X.
      * intros i. cbn [g_threads s' with_tables]. rewrite push_live, push_gone. destruct (i =? t) eqn:E; auto. apply Nat.eqb_eq in E. subst i. cbn. constructor; auto.
        intro H. apply in_app_or in H as [H|H]; contradiction.
      * intros i. cbn [g_threads s' with_tables g_active]. rewrite push_live. change (g_active (push_tls t TLeaveName s)) with (g_active s).
        rewrite ok_active0. destruct (i =? t); [|reflexivity]. cbn. split; auto. intros [E|E]; auto. discriminate E.
      * intros i. cbn [g_threads s' with_tables g_orphans]. rewrite push_gone. apply ok_orphans0.
      * intros i. cbn [g_threads s' with_tables g_named]. rewrite in_add, push_live. change (g_named (push_tls t TLeaveName s)) with (g_named s). rewrite ok_named0.
        destruct (i =? t) eqn:E.
        -- apply Nat.eqb_eq in E. subst i. cbn. tauto.
        -- apply Nat.eqb_neq in E. tauto.
      * intros i. cbn [g_threads s' with_tables]. rewrite push_phase, push_live, push_gone. intros U. destruct (i =? t) eqn:E; auto. apply Nat.eqb_eq in E. subst i.
        destruct W as [W|[W|[W Z]]]; rewrite U in W; (discriminate W || contradiction).
      * intros i. cbn [g_threads s' with_tables]. rewrite push_phase, push_gone. auto.
      * intros i I. cbn [g_threads s' with_tables]. rewrite push_phase, push_live. intros U. destruct (i =? t) eqn:E; auto. apply Nat.eqb_eq in E. subst i.
        destruct W as [W|[W|[W Z]]]; rewrite U in W; (discriminate W || contradiction).
    + assert (G : grows t s (push_tls t TLeaveName s)) by (apply grows_tls; intros k; discriminate). destruct G. constructor; auto.
    + cbn [g_threads s' with_tables]. rewrite push_live, Nat.eqb_refl. now left.
Qed.

Lemma def_tls_ok : forall t o init s s', okay s -> works t s -> tfree o -> o <> TLeaveBuffer -> o <> TLeaveName ->
  (forall si, init s = Some si -> okay si /\ grows t s si /\ rests o (h_live (g_threads si t)) /\ (In o (h_live (g_threads si t)) -> In o (h_live (g_threads s t)))) ->
  def_tls t o init s = Some s' -> okay s' /\ grows t s s' /\ In o (h_live (g_threads s' t)) /\
    (g_threads s' t = g_threads s t \/ exists si, init s = Some si /\ s' = push_tls t o si).
Proof.
  intros t o init s s' K W F NB NN I D. unfold def_tls, bind in D. destruct (inb tls_dec o (h_gone (g_threads s t))) eqn:E1; [discriminate|].
  apply inb_false in E1. destruct (inb tls_dec o (h_live (g_threads s t))) eqn:E2.
  - injection D as <-. apply inb_true in E2. auto using grows_refl.
  - apply inb_false in E2. destruct (init s) as [si|] eqn:E3; [|discriminate]. injection D as <-. destruct (I si eq_refl) as (Ki & Gi & R & N).
    split; [|split; [|split]].
    + apply push_ok; auto.
      * exact (works_grows _ _ _ Gi W).
      * split; auto. rewrite (gr_gone _ _ _ Gi). exact E1.
    + eapply grows_trans; [exact Gi|]. apply grows_tls; auto.
    + rewrite push_live, Nat.eqb_refl. now left.
    + right. eauto.
Qed.
Lemma def_tls_none : forall t o i s, In o (h_gone (g_threads s t)) -> def_tls t o i s = None.
Proof. intros. unfold def_tls. destruct (inb tls_dec o (h_gone (g_threads s t))) eqn:E; auto. apply inb_false in E. contradiction. Qed.
Lemma def_tls_some : forall t o i s, ~ In o (h_gone (g_threads s t)) -> (exists si, i s = Some si) -> exists s', def_tls t o i s = Some s'.
Proof.
  intros t o i s N (si & E). unfold def_tls, bind. rewrite E. destruct (inb tls_dec o (h_gone (g_threads s t))) eqn:E1; [apply inb_true in E1; contradiction|].
  destruct (inb tls_dec o (h_live (g_threads s t))); eauto.
Qed.

Lemma get_buffer_ok : forall t s s', okay s -> works t s -> (exists f, In (TPtr f) (h_live (g_threads s t))) -> get_buffer t s = Some s' ->
  okay s' /\ grows t s s' /\ In TLeaveBuffer (h_live (g_threads s' t)) /\ (forall x, In x (h_live (g_threads s' t)) -> x = TLeaveBuffer \/ In x (h_live (g_threads s t))).
Proof.
  intros t s s' K W F D. unfold get_buffer in D. destruct (def_static SCollector plain s) as [s1|] eqn:E1; [|discriminate]. cbn [bind] in D.
  destruct (def_static_ok t _ _ _ K E1 (fun k => ltac:(discriminate))) as (K1 & G1 & _ & T1).
  destruct (def_tls t TLeaveBuffer plain s1) as [s2|] eqn:E2; [|discriminate]. cbn [bind] in D. injection D as <-.
  assert (W1 : works t s1) by exact (works_grows _ _ _ G1 W). rewrite <- T1 in F.
  destruct (leave_buffer_ok t s1 K1 W1 F s2 E2) as (K2 & G2 & I2). split; [exact K2|]. split; [exact (grows_trans _ _ _ _ G1 G2)|]. split; [exact I2|].
  intros x X. cbn [g_threads with_tables] in X. unfold def_tls, plain, bind in E2. destruct (inb tls_dec TLeaveBuffer (h_gone (g_threads s1 t))); [discriminate|].
  destruct (inb tls_dec TLeaveBuffer (h_live (g_threads s1 t))); injection E2 as <-.
  - rewrite T1 in X. auto.
  - rewrite push_live, Nat.eqb_refl, T1 in X. destruct X as [X|X]; auto.
Qed.
Lemma get_state_ok : forall t s s', okay s -> works t s -> get_state t s = Some s' ->
  okay s' /\ grows t s s' /\ In TLeaveState (h_live (g_threads s' t)) /\ (forall x, In x (h_live (g_threads s' t)) -> x = TLeaveState \/ In x (h_live (g_threads s t))).
Proof.
  intros t s s' K W D. unfold get_state in D. destruct (def_static SConfigurator plain s) as [s1|] eqn:E1; [|discriminate]. cbn [bind] in D.
  destruct (def_static_ok t _ _ _ K E1 (fun k => ltac:(discriminate))) as (K1 & G1 & _ & T1).
  destruct (def_tls t TLeaveState plain s1) as [s2|] eqn:E2; [|discriminate]. cbn [bind] in D. injection D as <-.
  assert (W1 : works t s1) by exact (works_grows _ _ _ G1 W).
  destruct (def_tls_ok t TLeaveState plain s1 s2 K1 W1) as (K2 & G2 & I2 & C2); auto; try discriminate.
  { intros si [= <-]. split; auto. split; [apply grows_refl|]. split; auto. split; [intros d []|]. intro X; discriminate X. }
  split; [destruct K2; constructor; auto|]. split; [apply (grows_trans _ _ _ _ G1); destruct G2; constructor; auto|]. split; [exact I2|].
  intros x X. cbn [g_threads with_tables] in X. destruct C2 as [C2|(si & [= <-] & ->)].
  - rewrite C2, T1 in X. auto.
  - rewrite push_live, Nat.eqb_refl, T1 in X. destruct X as [X|X]; auto.
Qed.

(** What of the calling thread a use rests on afterwards. *)
Definition needs (u : use) : list tls :=
  match u with
  | UTrace f => [TPtr f; TBuffer f; TState f; TLeaveBuffer; TLeaveState]
  | USetName => [TLeaveName]
  | USetState => [TLeaveState]
  | _ => []
  end.

Lemma def_ptr_ok : forall t f s s', okay s -> def_static (SPtr f) (def_static SConfigurator plain) s = Some s' -> okay s' /\ grows t s s' /\ g_threads s' = g_threads s.
Proof.
  intros t f s s' K D. unfold def_static at 1, bind in D. destruct (inb stat_dec (SPtr f) (g_gone s)) eqn:E1; [discriminate|].
  apply inb_false in E1. destruct (inb stat_dec (SPtr f) (g_live s)) eqn:E2.
  - injection D as <-. auto using grows_refl.
  - apply inb_false in E2. destruct (def_static SConfigurator plain s) as [s1|] eqn:E3; [|discriminate].
    injection D as <-. destruct (def_static_ok t _ _ _ K E3 (fun k => ltac:(discriminate))) as (K1 & G1 & _ & T1).
    split; [|split; auto].
    + apply static_push; auto.
      * unfold def_static, plain, bind in E3. destruct (inb stat_dec SConfigurator (g_gone s)); [discriminate|].
        destruct (inb stat_dec SConfigurator (g_live s)); injection E3 as <-; auto. cbn. intros [X|X]; [discriminate X|contradiction].
      * rewrite (gr_sgone _ _ _ G1). exact E1.
    + apply (grows_trans _ _ _ _ G1). apply grows_static. intros k; discriminate.
Qed.
Lemma trace_ok : forall t f s s', okay s -> works t s -> trace t f s = Some s' -> okay s' /\ grows t s s' /\ incl (needs (UTrace f)) (h_live (g_threads s' t)) /\ In (t, f, true) (g_log s').
Proof.
  intros t f s s' K W D. unfold trace in D.
  destruct (def_static (SPtr f) (def_static SConfigurator plain) s) as [s1|] eqn:E1; [|discriminate]. cbn [bind] in D.
  destruct (def_ptr_ok t f s s1 K E1) as (K1 & G1 & T1). assert (W1 := works_grows _ _ _ G1 W).
  destruct (def_tls t (TPtr f) (def_static SCollector plain) s1) as [s2|] eqn:E2; [|discriminate]. cbn [bind] in D.
  destruct (def_tls_ok t (TPtr f) (def_static SCollector plain) s1 s2 K1 W1 (fun k => ltac:(discriminate)) ltac:(discriminate) ltac:(discriminate)) with (2 := E2) as (K2 & G2 & I2 & _).
  { intros si X. destruct (def_static_ok t _ _ _ K1 X (fun k => ltac:(discriminate))) as (Ki & Gi & _ & Ti). rewrite Ti. split; auto. split; auto. split; auto.
    split; [intros ? []|]. intro Z; discriminate Z. }
  assert (W2 := works_grows _ _ _ G2 W1).
  destruct (def_tls t (TBuffer f) (get_buffer t) s2) as [s3|] eqn:E3; [|discriminate]. cbn [bind] in D.
  destruct (def_tls_ok t (TBuffer f) (get_buffer t) s2 s3 K2 W2 (fun k => ltac:(discriminate)) ltac:(discriminate) ltac:(discriminate)) with (2 := E3) as (K3 & G3 & I3 & _).
  { intros si X. destruct (get_buffer_ok t _ _ K2 W2 (ex_intro _ f I2) X) as (Ki & Gi & Ii & Ni). split; auto. split; auto. split.
    - split; [|intro Z; discriminate Z]. intros d [<-|[<-|[]]]; auto. exact (grows_in _ _ _ _ Gi I2).
    - intros Y. destruct (Ni _ Y) as [Z|Z]; [discriminate Z|exact Z]. }
  assert (W3 := works_grows _ _ _ G3 W2). assert (P3 := grows_in _ _ _ _ G3 I2).
  assert (L3 : In TLeaveBuffer (h_live (g_threads s3 t))) by (apply (ordered_deps _ _ (ok_ordered _ K3 t) I3); cbn; auto).
  destruct (def_static (SState f) plain s3) as [s4|] eqn:E4; [|discriminate]. cbn [bind] in D.
  destruct (def_static_ok t _ _ _ K3 E4 (fun k => ltac:(discriminate))) as (K4 & G4 & _ & T4). assert (W4 := works_grows _ _ _ G4 W3).
  rewrite <- T4 in P3, L3, I3.
  destruct (def_tls t (TState f) (get_state t) s4) as [s5|] eqn:E5; [|discriminate]. cbn [bind] in D.
  destruct (def_tls_ok t (TState f) (get_state t) s4 s5 K4 W4 (fun k => ltac:(discriminate)) ltac:(discriminate) ltac:(discriminate)) with (2 := E5) as (K5 & G5 & I5 & _).
  { intros si X. destruct (get_state_ok t _ _ K4 W4 X) as (Ki & Gi & Ii & Ni). split; auto. split; auto. split.
    - split; [|intro Z; discriminate Z]. intros d [<-|[<-|[<-|[<-|[]]]]]; auto; apply (grows_in _ _ _ _ Gi); assumption.
    - intros Y. destruct (Ni _ Y) as [Z|Z]; [discriminate Z|exact Z]. }
  assert (A : In TLeaveBuffer (h_live (g_threads s5 t))) by exact (grows_in _ _ _ _ G5 L3).
  injection D as <-. split; [|split].
  - destruct K5. constructor; auto. cbn. intros e X. apply in_app_or in X as [X|[<-|[]]]; auto. cbn. apply inb_true. now apply ok_active0.
  - assert (G := grows_trans _ _ _ _ G1 (grows_trans _ _ _ _ G2 (grows_trans _ _ _ _ G3 (grows_trans _ _ _ _ G4 G5)))). destruct G. constructor; auto.
    intros e X. cbn. apply in_or_app. auto.
  - split.
    2:{ cbn. apply in_or_app. right. left. f_equal. apply inb_true. now apply (ok_active _ K5). }
    cbn [g_threads with_log]. intros d [<-|[<-|[<-|[<-|[<-|[]]]]]]; auto.
    + exact (grows_in _ _ _ _ G5 P3).
    + exact (grows_in _ _ _ _ G5 I3).
    + apply (ordered_deps _ _ (ok_ordered _ K5 t) I5). cbn; auto.
Qed.
Lemma perform_ok : forall t u s s', okay s -> works t s -> perform t u s = Some s' -> okay s' /\ grows t s s' /\ incl (needs u) (h_live (g_threads s' t)).
Proof.
  intros t u s s' K W D. destruct u; cbn [perform] in D.
  - destruct (trace_ok _ _ _ _ K W D) as (A & B & C & _). auto.
  - destruct (def_static_ok t _ _ _ K D (fun k => ltac:(discriminate))) as (A & B & _). split; auto. split; auto. intros d [].
  - unfold set_name in D. destruct (def_static SNames plain s) as [s1|] eqn:E1; [|discriminate]. cbn [bind] in D.
    destruct (def_static_ok t _ _ _ K E1 (fun k => ltac:(discriminate))) as (K1 & G1 & _ & T1).
    destruct (def_tls t TLeaveName plain s1) as [s2|] eqn:E2; [|discriminate]. cbn [bind] in D. injection D as <-.
    destruct (leave_name_ok t s1 K1 (works_grows _ _ _ G1 W) s2 E2) as (K2 & G2 & I2). split; auto. split; [exact (grows_trans _ _ _ _ G1 G2)|]. intros d [<-|[]]. exact I2.
  - destruct (def_static_ok t _ _ _ K D (fun k => ltac:(discriminate))) as (A & B & _). split; auto. split; auto. intros d [].
  - destruct (get_state_ok _ _ _ K W D) as (A & B & C & _). split; auto. split; auto. intros d [<-|[]]. exact C.
  - destruct (def_static_ok t _ _ _ K D (fun k => ltac:(discriminate))) as (A & B & _). split; auto. split; auto. intros d [].
Qed.
Lemma performs_ok : forall us t s s', okay s -> works t s -> performs t us s = Some s' -> okay s' /\ grows t s s'.
Proof.
  induction us as [|u us IH]; intros t s s' K W D; cbn [performs] in D.
  - injection D as <-. auto using grows_refl.
  - destruct (perform t u s) as [s1|] eqn:E; [|discriminate]. cbn [bind] in D. destruct (perform_ok _ _ _ _ K W E) as (K1 & G1 & _).
    destruct (IH _ _ _ K1 (works_grows _ _ _ G1 W) D) as (K2 & G2). split; auto. exact (grows_trans _ _ _ _ G1 G2).
Qed.

(** A tracepoint of a thread whose buffer has been put aside is undefined. *)
Lemma trace_late : forall t f s, okay s -> works t s -> In TLeaveBuffer (h_gone (g_threads s t)) -> trace t f s = None.
Proof.
  intros t f s K W L. destruct (trace t f s) as [s'|] eqn:E; auto. exfalso. destruct (trace_ok _ _ _ _ K W E) as (K' & G & I & _).
  assert (A : In TLeaveBuffer (h_live (g_threads s' t))) by (apply I; cbn; auto). rewrite <- (gr_gone _ _ _ G) in L.
  assert (N := ok_nodup _ K' t). apply in_split in A as (a & b & A). rewrite A in N. rewrite <- app_assoc in N. cbn in N. apply NoDup_remove_2 in N. apply N.
  apply in_or_app. right. apply in_or_app. auto.
Qed.

(** Steps keep all this. *)
Lemma live_gone : forall s t o, okay s -> In o (h_live (g_threads s t)) -> In o (h_gone (g_threads s t)) -> False.
Proof.
  intros s t o K A L. assert (N := ok_nodup _ K t). apply in_split in A as (a & b & A). rewrite A in N. rewrite <- app_assoc in N. cbn in N. apply NoDup_remove_2 in N. apply N.
  apply in_or_app. right. apply in_or_app. auto.
Qed.
Definition popped (t : nat) (o : tls) (r : list tls) (s : state) : state :=
  set_thread t {| h_phase := Unwinding; h_live := r; h_gone := o :: h_gone (g_threads s t) |} s.
Lemma popped_live : forall t o r s i, h_live (g_threads (popped t o r s) i) = if i =? t then r else h_live (g_threads s i).
Proof. intros. unfold popped. cbn. destruct (i =? t); auto. Qed.
Lemma popped_gone : forall t o r s i, h_gone (g_threads (popped t o r s) i) = if i =? t then o :: h_gone (g_threads s t) else h_gone (g_threads s i).
Proof. intros. unfold popped. cbn. destruct (i =? t); auto. Qed.
Lemma popped_phase : forall t o r s i, h_phase (g_threads s t) = Unwinding -> h_phase (g_threads (popped t o r s) i) = h_phase (g_threads s i).
Proof. intros. unfold popped. cbn. destruct (i =? t) eqn:E; auto. apply Nat.eqb_eq in E. subst. auto. Qed.

Lemma popped_ok : forall t o r s active orphans named, okay s -> h_phase (g_threads s t) = Unwinding -> h_live (g_threads s t) = o :: r ->
  (forall i, In i active <-> In TLeaveBuffer (if i =? t then r else h_live (g_threads s i))) ->
  (forall i, In i orphans <-> In TLeaveBuffer (if i =? t then o :: h_gone (g_threads s t) else h_gone (g_threads s i))) -> NoDup orphans ->
  (forall i, In i named <-> In TLeaveName (if i =? t then r else h_live (g_threads s i))) ->
  forall states, okay (with_tables active orphans states named (popped t o r s)).
Proof.
  intros t o r s active orphans named [] P L A O N M states.
  constructor; cbn [g_threads with_tables g_active g_orphans g_named g_live g_gone g_log]; auto.
  - intros i. rewrite popped_live. destruct (i =? t) eqn:E; auto. assert (X := ok_ordered0 t). rewrite L in X. exact (proj2 X).
  - intros i. rewrite popped_live, popped_gone. destruct (i =? t) eqn:E; auto. assert (X := ok_nodup0 t). rewrite L in X. cbn in X.
    apply NoDup_cons_iff in X as [X1 X2]. apply (NoDup_Add (a := o) (l := r ++ h_gone (g_threads s t))); [apply Add_app|]. auto.
  - intros i. rewrite popped_live. apply A.
  - intros i. rewrite popped_gone. apply O.
  - intros i. rewrite popped_live. apply M.
  - intros i. rewrite popped_phase by auto. intros U. destruct (Nat.eq_dec i t) as [->|E]; [rewrite P in U; discriminate U|].
    rewrite popped_live, popped_gone. apply Nat.eqb_neq in E. rewrite E. auto.
  - intros i. rewrite popped_phase by auto. intros U. destruct (Nat.eq_dec i t) as [->|E]; [rewrite P in U; discriminate U|].
    rewrite popped_gone. apply Nat.eqb_neq in E. rewrite E. auto.
  - intros i I. rewrite popped_phase by auto. intros U. destruct (Nat.eq_dec i t) as [->|E]; [rewrite P in U; discriminate U|].
    rewrite popped_live. apply Nat.eqb_neq in E. rewrite E. auto.
Qed.
Lemma popped_plain : forall t o r s, okay s -> h_phase (g_threads s t) = Unwinding -> h_live (g_threads s t) = o :: r ->
  o <> TLeaveBuffer -> o <> TLeaveName -> forall states, okay (with_tables (g_active s) (g_orphans s) states (g_named s) (popped t o r s)).
Proof.
  intros t o r s K P L NB NN states. apply popped_ok; auto.
  - intros i. rewrite (ok_active _ K). destruct (i =? t) eqn:E; [|reflexivity]. apply Nat.eqb_eq in E. subst i. rewrite L. cbn. split; auto. intros [X|X]; auto. contradiction.
  - intros i. rewrite (ok_orphans _ K). destruct (i =? t) eqn:E; [|reflexivity]. apply Nat.eqb_eq in E. subst i. cbn. split; auto. intros [X|X]; auto. contradiction.
  - exact (ok_once _ K).
  - intros i. rewrite (ok_named _ K). destruct (i =? t) eqn:E; [|reflexivity]. apply Nat.eqb_eq in E. subst i. rewrite L. cbn. split; auto. intros [X|X]; auto. contradiction.
Qed.

Section Program.
Variable body : nat -> list use.

Lemma nodup_tail : forall A (o : A) r, NoDup (o :: r) -> ~ In o r.
Proof. intros. now apply NoDup_cons_iff in H. Qed.

Lemma nodup_left : forall A (a b : list A), NoDup (a ++ b) -> NoDup a.
Proof.
  induction a as [|x a IH]; intros b N; [constructor|]. cbn in N. apply NoDup_cons_iff in N as [N1 N2]. constructor; [|exact (IH _ N2)].
  intro H. apply N1. apply in_or_app. auto.
Qed.
Lemma drop_ok : forall t o r s s', okay s -> h_phase (g_threads s t) = Unwinding -> h_live (g_threads s t) = o :: r ->
  destroy_tls body t o (popped t o r s) = Some s' ->
  okay s' /\ h_phase (g_threads s' t) = Unwinding /\ h_gone (g_threads s' t) = o :: h_gone (g_threads s t) /\
  grows t (popped t o r s) s'.
Proof.
  intros t o r s s' K P L D.
  assert (ND : NoDup (o :: r)) by (assert (N := ok_nodup _ K t); rewrite L in N; exact (nodup_left _ _ _ N)). apply nodup_tail in ND.
  assert (GO : h_gone (g_threads (popped t o r s) t) = o :: h_gone (g_threads s t)) by (rewrite popped_gone, Nat.eqb_refl; auto).
  assert (PH : h_phase (g_threads (popped t o r s) t) = Unwinding) by (rewrite popped_phase; auto).
  assert (GR : forall a b c d, grows t (popped t o r s) (with_tables a b c d (popped t o r s))) by (intros; destruct (grows_refl t (popped t o r s)); constructor; auto).
  assert (ID : popped t o r s = with_tables (g_active s) (g_orphans s) (g_states s) (g_named s) (popped t o r s)) by reflexivity.
  destruct o; cbn [destroy_tls] in D.
  - injection D as <-. split; [rewrite ID; apply popped_plain; auto; discriminate|]. auto using grows_refl.
  - injection D as <-. split; [rewrite ID; apply popped_plain; auto; discriminate|]. auto using grows_refl.
  - injection D as <-. split; [rewrite ID; apply popped_plain; auto; discriminate|]. auto using grows_refl.
  - assert (H : holds_collector (g_threads (popped t TLeaveBuffer r s) t) = true).
    { unfold holds_collector. apply existsb_exists. assert (O := ok_ordered _ K t). rewrite L in O. destruct O as [[_ O] _]. destruct (O eq_refl) as (f & F).
      exists (TPtr f). rewrite popped_live, Nat.eqb_refl. auto. }
    rewrite H, orb_true_r in D. assert (A : In t (g_active s)) by (apply (ok_active _ K); rewrite L; now left).
    change (g_active (popped t TLeaveBuffer r s)) with (g_active s) in D.
    assert (A' : inb Nat.eq_dec t (g_active s) = true) by now apply inb_true. rewrite A' in D. injection D as <-. split; [|auto].
    apply popped_ok; auto.
    + intros i. rewrite in_drop, (ok_active _ K). destruct (i =? t) eqn:E.
      * apply Nat.eqb_eq in E. subst i. split; [intros [_ X]; contradiction|]. intros X. contradiction.
      * apply Nat.eqb_neq in E. tauto.
    + intros i. change (g_orphans (popped t TLeaveBuffer r s)) with (g_orphans s). rewrite in_app_iff, (ok_orphans _ K). destruct (i =? t) eqn:E.
      * apply Nat.eqb_eq in E. subst i. cbn. tauto.
      * apply Nat.eqb_neq in E. cbn. split; auto. intros [X|[X|[]]]; auto. congruence.
    + change (g_orphans (popped t TLeaveBuffer r s)) with (g_orphans s). apply (NoDup_Add (a := t) (l := g_orphans s)).
      * assert (X := Add_app t (g_orphans s) []). rewrite app_nil_r in X. exact X.
      * split; [exact (ok_once _ K)|]. intro X. apply (ok_orphans _ K) in X. apply (live_gone _ _ TLeaveBuffer K) in X; auto. rewrite L. now left.
    + intros i. change (g_named (popped t TLeaveBuffer r s)) with (g_named s). rewrite (ok_named _ K). destruct (i =? t) eqn:E; [|reflexivity].
      apply Nat.eqb_eq in E. subst i. rewrite L. cbn. split; auto. intros [X|X]; auto. discriminate X.
  - destruct (holds_configurator (popped t TLeaveState r s)); injection D as <-.
    + split; [apply popped_plain; auto; discriminate|]. auto.
    + split; [rewrite ID; apply popped_plain; auto; discriminate|]. auto using grows_refl.
  - destruct (inb stat_dec SNames (g_gone (popped t TLeaveName r s))); [discriminate|]. injection D as <-. split; [|auto].
    apply popped_ok; auto.
    + intros i. change (g_active (popped t TLeaveName r s)) with (g_active s). rewrite (ok_active _ K). destruct (i =? t) eqn:E; [|reflexivity].
      apply Nat.eqb_eq in E. subst i. rewrite L. cbn. split; auto. intros [X|X]; auto. discriminate X.
    + intros i. change (g_orphans (popped t TLeaveName r s)) with (g_orphans s). rewrite (ok_orphans _ K). destruct (i =? t) eqn:E; [|reflexivity].
      apply Nat.eqb_eq in E. subst i. cbn. split; auto. intros [X|X]; auto. discriminate X.
    + exact (ok_once _ K).
    + intros i. change (g_named (popped t TLeaveName r s)) with (g_named s). rewrite in_drop, (ok_named _ K). destruct (i =? t) eqn:E.
      * apply Nat.eqb_eq in E. subst i. split; [intros [_ X]; contradiction|]. intros X. contradiction.
      * apply Nat.eqb_neq in E. tauto.
  - assert (K1 : okay (popped t (TUser k) r s)) by (rewrite ID; apply popped_plain; auto; discriminate).
    destruct (performs_ok _ _ _ _ K1 (or_intror (or_introl PH)) D) as (K2 & G2). split; auto. rewrite (gr_phase _ _ _ G2), (gr_gone _ _ _ G2). auto.
Qed.

Lemma set_phase_ok : forall t p s, okay s -> p <> Unborn -> (p = Running -> h_phase (g_threads s t) = Unborn) -> (t <> 0 -> p = Over -> h_live (g_threads s t) = []) ->
  okay (set_thread t (with_phase p (g_threads s t)) s).
Proof.
  intros t p s [] U R O.
  assert (TL : forall i, h_live (g_threads (set_thread t (with_phase p (g_threads s t)) s) i) = h_live (g_threads s i))
    by (intros i; cbn; destruct (i =? t) eqn:E; auto; apply Nat.eqb_eq in E; subst; auto).
  assert (TG : forall i, h_gone (g_threads (set_thread t (with_phase p (g_threads s t)) s) i) = h_gone (g_threads s i))
    by (intros i; cbn; destruct (i =? t) eqn:E; auto; apply Nat.eqb_eq in E; subst; auto).
  assert (TP : forall i, h_phase (g_threads (set_thread t (with_phase p (g_threads s t)) s) i) = if i =? t then p else h_phase (g_threads s i))
    by (intros i; cbn; destruct (i =? t) eqn:E; auto).
  constructor; try exact ok_statics0; try exact ok_once0; try exact ok_log0; intros i; try rewrite TL; try rewrite TG; try rewrite TP; auto.
  - destruct (i =? t) eqn:E; auto. intros; contradiction.
  - destruct (i =? t) eqn:E; auto. intros X. apply Nat.eqb_eq in E. subst i. exact (proj2 (ok_unborn0 _ (R X))).
  - intros I. destruct (i =? t) eqn:E; auto. intros X. apply Nat.eqb_eq in E. subst i. auto.
Qed.

Lemma step_ok : forall l s s', okay s -> step body l s = Next s' -> okay s'.
Proof.
  intros l s s' K D. destruct l; cbn [step] in D.
  - destruct (h_phase (g_threads s t)) eqn:P; try discriminate. injection D as <-. apply set_phase_ok; auto; discriminate.
  - destruct (h_phase (g_threads s t)) eqn:P; try discriminate. destruct (perform t u s) as [s1|] eqn:E; [|discriminate]. injection D as <-.
    exact (proj1 (perform_ok _ _ _ _ K (or_introl P) E)).
  - destruct (h_phase (g_threads s t)) eqn:P; try discriminate. unfold def_tls, plain, bind in D.
    destruct (inb tls_dec (TUser k) (h_gone (g_threads s t))) eqn:E1; [discriminate|]. apply inb_false in E1.
    destruct (inb tls_dec (TUser k) (h_live (g_threads s t))) eqn:E2; injection D as <-; auto. apply inb_false in E2.
    apply push_ok; auto; try discriminate; try (split; auto). now left. intros d []. intro; discriminate.
  - destruct (h_phase (g_threads s t)) eqn:P; try discriminate. unfold def_static, plain, bind in D.
    destruct (inb stat_dec (SUser k) (g_gone s)) eqn:E1; [discriminate|]. apply inb_false in E1.
    destruct (inb stat_dec (SUser k) (g_live s)) eqn:E2; injection D as <-; auto. apply inb_false in E2. apply static_push; auto.
  - destruct (h_phase (g_threads s t)) eqn:P; try discriminate. injection D as <-. apply set_phase_ok; auto; discriminate.
  - destruct (h_phase (g_threads s t)) eqn:P; try discriminate. destruct (h_live (g_threads s t)) as [|o r] eqn:L; [discriminate|].
    fold (popped t o r s) in D. destruct (destroy_tls body t o (popped t o r s)) as [s1|] eqn:E; [|discriminate]. injection D as <-.
    exact (proj1 (drop_ok _ _ _ _ _ K P L E)).
  - destruct (h_phase (g_threads s t)) eqn:P; try discriminate. destruct (h_live (g_threads s t)) as [|o r] eqn:L; [|discriminate].
    injection D as <-. apply set_phase_ok; auto; discriminate.
  - destruct (h_phase (g_threads s 0)) eqn:P; try discriminate. destruct (g_live s) as [|o r] eqn:L; [discriminate|].
    assert (K1 : okay (with_statics r (o :: g_gone s) s)).
    { destruct K. constructor; auto. cbn. rewrite L in ok_statics0. cbn in ok_statics0. apply NoDup_cons_iff in ok_statics0 as [X1 X2].
      apply (NoDup_Add (a := o) (l := r ++ g_gone s)); [apply Add_app|]. auto. }
    destruct o; try (injection D as <-; exact K1).
    destruct (performs 0 (body k) (with_statics r (SUser k :: g_gone s) s)) as [s1|] eqn:E; [|discriminate]. injection D as <-.
    refine (proj1 (performs_ok _ _ _ _ K1 _ E)). right. right. auto.
Qed.
Lemma run_app : forall a b s, run body (a ++ b) s = match run body a s with Next s' => run body b s' | o => o end.
Proof. induction a as [|l a IH]; intros; cbn; auto. destruct (step body l s); auto. Qed.
Lemma run_ok : forall ls s s', okay s -> run body ls s = Next s' -> okay s'.
Proof.
  induction ls as [|l ls IH]; intros s s' K R; cbn in R.
  - now injection R as <-.
  - destruct (step body l s) as [s1| |] eqn:E; try discriminate. eapply IH; [|exact R]. exact (step_ok _ _ _ K E).
Qed.

(** Objects that have been made, and what is never undone. *)
Definition made (t : nat) (o : tls) (s : state) : Prop := In o (h_live (g_threads s t)) \/ In o (h_gone (g_threads s t)).
Definition smade (o : stat) (s : state) : Prop := In o (g_live s) \/ In o (g_gone s).
Definition left (t : nat) (s : state) : Prop := h_phase (g_threads s t) = Unwinding \/ h_phase (g_threads s t) = Over.
Record keeps (s s' : state) : Prop := {
  kp_made : forall t o, made t o s -> made t o s';
  kp_gone : forall t o, In o (h_gone (g_threads s t)) -> In o (h_gone (g_threads s' t));
  kp_smade : forall o, smade o s -> smade o s';
  kp_sgone : forall o, In o (g_gone s) -> In o (g_gone s');
  kp_log : forall e, In e (g_log s) -> In e (g_log s');
  kp_over : forall t, h_phase (g_threads s t) = Over -> h_phase (g_threads s' t) = Over;
  kp_left : forall t, left t s -> left t s';
  kp_born : forall t, h_phase (g_threads s' t) = Unborn -> h_phase (g_threads s t) = Unborn
}.
Lemma keeps_refl : forall s, keeps s s.
Proof. intros. constructor; auto. Qed.
Lemma keeps_trans : forall a b c, keeps a b -> keeps b c -> keeps a c.
Proof. intros a b c [] []. constructor; auto. Qed.
Lemma grows_keeps : forall t s s', grows t s s' -> keeps s s'.
Proof.
  intros t s s' [O P G [n [L _]] [m [S _]] Z H].
  assert (C : forall i, (i = t /\ h_phase (g_threads s' i) = h_phase (g_threads s i) /\ h_gone (g_threads s' i) = h_gone (g_threads s i) /\ h_live (g_threads s' i) = n ++ h_live (g_threads s i)) \/
    g_threads s' i = g_threads s i) by (intros i; destruct (Nat.eq_dec i t) as [->|E]; auto).
  constructor; auto.
  - intros i o M. unfold made in *. destruct (C i) as [(-> & _ & -> & ->)| ->]; auto. destruct M as [M|M]; auto. left. apply in_or_app. auto.
  - intros i o M. destruct (C i) as [(-> & _ & -> & _)| ->]; auto.
  - intros o [M|M]; unfold smade; rewrite S, Z; auto. left. apply in_or_app. auto.
  - intros o M. now rewrite Z.
  - intros i X. destruct (C i) as [(-> & -> & _)| ->]; auto.
  - intros i X. unfold left in *. destruct (C i) as [(-> & -> & _)| ->]; auto.
  - intros i X. destruct (C i) as [(-> & E & _)|E]; [rewrite <- E|rewrite <- E]; auto.
Qed.
Lemma popped_keeps : forall t o r s, h_phase (g_threads s t) = Unwinding -> h_live (g_threads s t) = o :: r -> keeps s (popped t o r s).
Proof.
  intros t o r s P L. constructor; auto.
  - intros i x M. unfold made in *. rewrite popped_live, popped_gone. destruct (i =? t) eqn:E; auto. apply Nat.eqb_eq in E. subst i. rewrite L in M. cbn in M |- *. tauto.
  - intros i x M. rewrite popped_gone. destruct (i =? t) eqn:E; auto. apply Nat.eqb_eq in E. subst i. now right.
  - intros i X. rewrite popped_phase; auto.
  - intros i X. unfold left in *. rewrite popped_phase; auto.
  - intros i X. rewrite popped_phase in X; auto.
Qed.
Lemma phase_keeps : forall t p s, p <> Unborn -> (h_phase (g_threads s t) = Over -> p = Over) -> (left t s -> p = Unwinding \/ p = Over) ->
  keeps s (set_thread t (with_phase p (g_threads s t)) s).
Proof.
  intros t p s U O F.
  assert (C : forall i, (i = t /\ g_threads (set_thread t (with_phase p (g_threads s t)) s) i = with_phase p (g_threads s i)) \/
    g_threads (set_thread t (with_phase p (g_threads s t)) s) i = g_threads s i).
  { intros i. cbn. destruct (i =? t) eqn:E; auto. left. apply Nat.eqb_eq in E. now subst. }
  constructor; auto; intros i.
  - intros o M. unfold made in *. destruct (C i) as [[-> ->]| ->]; auto.
  - intros o M. destruct (C i) as [[-> ->]| ->]; auto.
  - intros X. destruct (C i) as [[-> ->]| ->]; auto.
  - intros X. unfold left. destruct (C i) as [[-> ->]| ->]; [exact (F X)|exact X].
  - intros X. destruct (C i) as [[-> E]|E]; rewrite E in X; auto. cbn in X. contradiction.
Qed.
Lemma user_tls_keeps : forall t o s, fresh o (g_threads s t) -> keeps s (push_tls t o s).
Proof.
  intros t o s _. constructor; auto; intros i.
  - intros x M. unfold made in *. rewrite push_live, push_gone. destruct (i =? t); auto. destruct M; auto. left. now right.
  - intros x M. now rewrite push_gone.
  - intros X. now rewrite push_phase.
  - intros X. unfold left in *. now rewrite push_phase.
  - intros X. now rewrite push_phase in X.
Qed.
Lemma static_keeps : forall o s, keeps s (with_statics (o :: g_live s) (g_gone s) s).
Proof. intros. constructor; auto. intros x [M|M]; [left|right]; cbn; auto. Qed.
Lemma static_popped_keeps : forall o r s, g_live s = o :: r -> keeps s (with_statics r (o :: g_gone s) s).
Proof.
  intros o r s L. constructor; auto; intros x M.
  - unfold smade in *. rewrite L in M. cbn in *. tauto.
  - now right.
Qed.

Lemma step_keeps : forall l s s', okay s -> step body l s = Next s' -> keeps s s'.
Proof.
  intros l s s' K D. destruct l; cbn [step] in D.
  - destruct (h_phase (g_threads s t)) eqn:P; try discriminate. injection D as <-. apply phase_keeps; try discriminate.
    + rewrite P; discriminate.
    + intros [X|X]; rewrite P in X; discriminate X.
  - destruct (h_phase (g_threads s t)) eqn:P; try discriminate. destruct (perform t u s) as [s1|] eqn:E; [|discriminate]. injection D as <-.
    exact (grows_keeps _ _ _ (proj1 (proj2 (perform_ok _ _ _ _ K (or_introl P) E)))).
  - destruct (h_phase (g_threads s t)) eqn:P; try discriminate. unfold def_tls, plain, bind in D.
    destruct (inb tls_dec (TUser k) (h_gone (g_threads s t))) eqn:E1; [discriminate|]. apply inb_false in E1.
    destruct (inb tls_dec (TUser k) (h_live (g_threads s t))) eqn:E2; injection D as <-; [apply keeps_refl|]. apply inb_false in E2.
    apply user_tls_keeps. split; auto.
  - destruct (h_phase (g_threads s t)) eqn:P; try discriminate. unfold def_static, plain, bind in D.
    destruct (inb stat_dec (SUser k) (g_gone s)) eqn:E1; [discriminate|].
    destruct (inb stat_dec (SUser k) (g_live s)) eqn:E2; injection D as <-; [apply keeps_refl|]. apply static_keeps.
  - destruct (h_phase (g_threads s t)) eqn:P; try discriminate. injection D as <-. apply phase_keeps; try discriminate.
    + rewrite P; discriminate.
    + auto.
  - destruct (h_phase (g_threads s t)) eqn:P; try discriminate. destruct (h_live (g_threads s t)) as [|o r] eqn:L; [discriminate|].
    fold (popped t o r s) in D. destruct (destroy_tls body t o (popped t o r s)) as [s1|] eqn:E; [|discriminate]. injection D as <-.
    destruct (drop_ok _ _ _ _ _ K P L E) as (_ & _ & _ & G). exact (keeps_trans _ _ _ (popped_keeps _ _ _ _ P L) (grows_keeps _ _ _ G)).
  - destruct (h_phase (g_threads s t)) eqn:P; try discriminate. destruct (h_live (g_threads s t)) as [|o r] eqn:L; [|discriminate].
    injection D as <-. apply phase_keeps; try discriminate; auto.
  - destruct (h_phase (g_threads s 0)) eqn:P; try discriminate. destruct (g_live s) as [|o r] eqn:L; [discriminate|].
    assert (Z := static_popped_keeps o r s L).
    assert (K1 : okay (with_statics r (o :: g_gone s) s)).
    { destruct K. constructor; auto. cbn. rewrite L in ok_statics0. cbn in ok_statics0. apply NoDup_cons_iff in ok_statics0 as [X1 X2].
      apply (NoDup_Add (a := o) (l := r ++ g_gone s)); [apply Add_app|]. auto. }
    destruct o; try (injection D as <-; exact Z).
    destruct (performs 0 (body k) (with_statics r (SUser k :: g_gone s) s)) as [s1|] eqn:E; [|discriminate]. injection D as <-.
    apply (keeps_trans _ _ _ Z). refine (grows_keeps 0 _ _ (proj2 (performs_ok _ _ _ _ K1 _ E))). right. right. auto.
Qed.
Lemma run_keeps : forall ls s s', okay s -> run body ls s = Next s' -> keeps s s'.
Proof.
  induction ls as [|l ls IH]; intros s s' K R; cbn in R.
  - injection R as <-. apply keeps_refl.
  - destruct (step body l s) as [s1| |] eqn:E; try discriminate. apply (keeps_trans _ _ _ (step_keeps _ _ _ K E)). eapply IH; [|exact R]. exact (step_ok _ _ _ K E).
Qed.

(** A reached state, cut at one of the steps. *)
Lemma reached_ok : forall ls s, reached body ls s -> okay s.
Proof. intros ls s R. exact (run_ok _ _ _ okay0 R). Qed.
Lemma reached_cut : forall a l b s, reached body (a ++ l :: b) s -> exists s1 s2, reached body a s1 /\ step body l s1 = Next s2 /\ run body b s2 = Next s /\ keeps s2 s.
Proof.
  intros a l b s R. unfold reached in *. rewrite run_app in R. destruct (run body a state0) as [s1| |] eqn:E; try discriminate. cbn in R.
  destruct (step body l s1) as [s2| |] eqn:E2; try discriminate. exists s1, s2. split; auto. split; auto. split; auto.
  apply (run_keeps b); auto. apply (step_ok l s1); auto. exact (run_ok _ _ _ okay0 E).
Qed.
Lemma did : forall ls s t u, reached body ls s -> In (Do t u) ls -> (forall o, In o (needs u) -> made t o s) /\ (forall f, u = UTrace f -> In (t, f, true) (g_log s)).
Proof.
  intros ls s t u R I. apply in_split in I as (a & b & ->). destruct (reached_cut _ _ _ _ R) as (s1 & s2 & R1 & D & _ & P).
  assert (K1 := reached_ok _ _ R1). cbn [step] in D. destruct (h_phase (g_threads s1 t)) eqn:PH; try discriminate.
  destruct (perform t u s1) as [s3|] eqn:E; [|discriminate]. injection D as ->. destruct (perform_ok _ _ _ _ K1 (or_introl PH) E) as (_ & _ & N). split.
  - intros o O. apply (kp_made _ _ P). left. auto.
  - intros f ->. cbn in E. apply (kp_log _ _ P). apply (trace_ok _ _ _ _ K1 (or_introl PH) E).
Qed.
Lemma ended : forall ls s t, reached body ls s -> In (End t) ls -> h_phase (g_threads s t) = Over.
Proof.
  intros ls s t R I. apply in_split in I as (a & b & ->). destruct (reached_cut _ _ _ _ R) as (s1 & s2 & R1 & D & _ & P).
  apply (kp_over _ _ P). cbn [step] in D. destruct (h_phase (g_threads s1 t)) eqn:PH; try discriminate. destruct (h_live (g_threads s1 t)); [|discriminate].
  injection D as <-. now rewrite threads_same.
Qed.
Lemma ended_gone : forall ls s t o, reached body ls s -> In (End t) ls -> (exists u, In (Do t u) ls /\ In o (needs u)) -> In o (h_gone (g_threads s t)).
Proof.
  intros ls s t o R I (u & U & N). apply in_split in I as (a & b & ->). destruct (reached_cut _ _ _ _ R) as (s1 & s2 & R1 & D & R2 & P).
  assert (K1 := reached_ok _ _ R1). assert (D' := D). cbn [step] in D'. destruct (h_phase (g_threads s1 t)) eqn:PH; try discriminate.
  destruct (h_live (g_threads s1 t)) eqn:L; [|discriminate]. apply (kp_gone _ _ P).
  assert (U1 : In (Do t u) a).
  { apply in_app_or in U as [U|[U|U]]; auto; [discriminate U|]. exfalso. apply in_split in U as (c & d & ->).
    rewrite run_app in R2. destruct (run body c s2) as [s3| |] eqn:E3; try discriminate. assert (K2 := step_ok _ _ _ K1 D).
    assert (O2 : h_phase (g_threads s2 t) = Over) by (injection D' as <-; now rewrite threads_same).
    assert (O3 := kp_over _ _ (run_keeps _ _ _ K2 E3) t O2). cbn [run step] in R2. rewrite O3 in R2. discriminate R2. }
  destruct (did _ _ _ _ R1 U1) as [M _]. destruct (M _ N) as [X|X]; [rewrite L in X; contradiction|].
  apply (kp_gone _ _ (step_keeps _ _ _ K1 D)). exact X.
Qed.

Lemma pushes : forall ls s, reached body ls s ->
  (forall t f, In (Do t (UTrace f)) ls -> In (t, f, true) (g_log s)) /\ (forall t f b, In (t, f, b) (g_log s) -> b = true).
Proof.
  intros ls s R. split.
  - intros t f I. exact (proj2 (did _ _ _ _ R I) f eq_refl).
  - intros t f b I. exact (ok_log _ (reached_ok _ _ R) _ I).
Qed.
Lemma leaves : forall ls s t, reached body ls s -> t <> 0 -> In (End t) ls ->
  ~ In t (g_active s) /\ ~ In t (g_named s) /\ (forall f, In (Do t (UTrace f)) ls -> count_occ Nat.eq_dec (g_orphans s) t = 1).
Proof.
  intros ls s t R Z I. assert (K := reached_ok _ _ R). assert (L := ok_over _ K t Z (ended _ _ _ R I)). split; [|split].
  - rewrite (ok_active _ K), L. auto.
  - rewrite (ok_named _ K), L. auto.
  - intros f F. apply NoDup_count_occ'; [exact (ok_once _ K)|]. apply (ok_orphans _ K). apply (ended_gone ls); auto. exists (UTrace f). split; auto. cbn; auto.
Qed.

(** A body with a tracepoint in it, in a thread that has put its buffer aside. *)
Lemma performs_late : forall us t f s, okay s -> works t s -> In TLeaveBuffer (h_gone (g_threads s t)) -> In (UTrace f) us -> performs t us s = None.
Proof.
  induction us as [|u us IH]; intros t f s K W L I; [contradiction|]. cbn [performs]. destruct (perform t u s) as [s1|] eqn:E; auto. cbn [bind].
  destruct (perform_ok _ _ _ _ K W E) as (K1 & G1 & _). destruct I as [->|I].
  - cbn [perform] in E. rewrite (trace_late _ _ _ K W L) in E. discriminate E.
  - apply (IH _ f); auto. exact (works_grows _ _ _ G1 W). rewrite (gr_gone _ _ _ G1). exact L.
Qed.

Lemma reached_snoc : forall ls l s', reached body (ls ++ [l]) s' -> exists s, reached body ls s /\ step body l s = Next s'.
Proof.
  intros ls l s' R. unfold reached in *. rewrite run_app in R. destruct (run body ls state0) as [s| |] eqn:E; try discriminate. exists s. split; auto.
  cbn in R. destruct (step body l s); auto.
Qed.
Lemma same_or : forall t s s' i, grows t s s' -> h_phase (g_threads s' i) = h_phase (g_threads s i).
Proof. intros t s s' i G. destruct (Nat.eq_dec i t) as [->|E]; [exact (gr_phase _ _ _ G)|now rewrite (gr_other _ _ _ G i E)]. Qed.

(** What a step does to one thread. *)
Inductive thread_step (l : label) (t : nat) (s s' : state) : Prop :=
  | TSNone : g_threads s' t = g_threads s t -> thread_step l t s s'
  | TSStart : l = Start t -> h_phase (g_threads s t) = Unborn -> g_threads s' t = with_phase Running (g_threads s t) -> thread_step l t s s'
  | TSReturn : l = Return t -> h_phase (g_threads s t) = Running -> g_threads s' t = with_phase Unwinding (g_threads s t) -> thread_step l t s s'
  | TSEnd : l = End t -> h_phase (g_threads s t) = Unwinding -> h_live (g_threads s t) = [] -> g_threads s' t = with_phase Over (g_threads s t) -> thread_step l t s s'
  | TSDo u : l = Do t u -> h_phase (g_threads s t) = Running -> perform t u s = Some s' -> grows t s s' -> thread_step l t s s'
  | TSLocal k : l = Local t k -> h_phase (g_threads s t) = Running -> ~ In (TUser k) (h_live (g_threads s t)) -> s' = push_tls t (TUser k) s -> thread_step l t s s'
  | TSDrop o r : l = Drop t -> h_phase (g_threads s t) = Unwinding -> h_live (g_threads s t) = o :: r -> destroy_tls body t o (popped t o r s) = Some s' ->
      grows t (popped t o r s) s' -> thread_step l t s s'
  | TSExit k r : l = Exit -> t = 0 -> h_phase (g_threads s t) = Over -> g_live s = SUser k :: r -> okay (with_statics r (SUser k :: g_gone s) s) ->
      performs 0 (body k) (with_statics r (SUser k :: g_gone s) s) = Some s' -> grows 0 (with_statics r (SUser k :: g_gone s) s) s' -> thread_step l t s s'.
Lemma static_threads : forall o s s', def_static o plain s = Some s' -> g_threads s' = g_threads s.
Proof.
  intros o s s' D. unfold def_static, plain, bind in D. destruct (inb stat_dec o (g_gone s)); [discriminate|].
  destruct (inb stat_dec o (g_live s)); injection D as <-; auto.
Qed.
Lemma statics_popped_ok : forall s o r, okay s -> g_live s = o :: r -> okay (with_statics r (o :: g_gone s) s).
Proof.
  intros s o r K L. destruct K. constructor; auto. cbn. rewrite L in ok_statics0. cbn in ok_statics0. apply NoDup_cons_iff in ok_statics0 as [X1 X2].
  apply (NoDup_Add (a := o) (l := r ++ g_gone s)); [apply Add_app|]. auto.
Qed.
Lemma step_thread : forall l s s' i, okay s -> step body l s = Next s' -> thread_step l i s s'.
Proof.
  intros l s s' i K D. destruct l; cbn [step] in D.
  - destruct (h_phase (g_threads s t)) eqn:P; try discriminate. injection D as <-. destruct (Nat.eq_dec i t) as [->|E].
    + apply TSStart; auto. now rewrite threads_same.
    + apply TSNone. now apply threads_other.
  - destruct (h_phase (g_threads s t)) eqn:P; try discriminate. destruct (perform t u s) as [s1|] eqn:E; [|discriminate]. injection D as <-.
    destruct (perform_ok _ _ _ _ K (or_introl P) E) as (_ & G & _). destruct (Nat.eq_dec i t) as [->|Z].
    + eapply TSDo; eauto.
    + apply TSNone. exact (gr_other _ _ _ G i Z).
  - destruct (h_phase (g_threads s t)) eqn:P; try discriminate. unfold def_tls, plain, bind in D.
    destruct (inb tls_dec (TUser k) (h_gone (g_threads s t))) eqn:E1; [discriminate|]. apply inb_false in E1.
    destruct (inb tls_dec (TUser k) (h_live (g_threads s t))) eqn:E2; injection D as <-; [now apply TSNone|]. apply inb_false in E2.
    destruct (Nat.eq_dec i t) as [->|Z]; [eapply TSLocal; eauto|]. apply TSNone. now apply threads_other.
  - destruct (h_phase (g_threads s t)) eqn:P; try discriminate. destruct (def_static (SUser k) plain s) as [s1|] eqn:E; [|discriminate]. injection D as <-.
    apply TSNone. now rewrite (static_threads _ _ _ E).
  - destruct (h_phase (g_threads s t)) eqn:P; try discriminate. injection D as <-. destruct (Nat.eq_dec i t) as [->|E].
    + apply TSReturn; auto. now rewrite threads_same.
    + apply TSNone. now apply threads_other.
  - destruct (h_phase (g_threads s t)) eqn:P; try discriminate. destruct (h_live (g_threads s t)) as [|o r] eqn:L; [discriminate|].
    fold (popped t o r s) in D. destruct (destroy_tls body t o (popped t o r s)) as [s1|] eqn:E; [|discriminate]. injection D as <-.
    destruct (drop_ok _ _ _ _ _ K P L E) as (_ & _ & _ & G). destruct (Nat.eq_dec i t) as [->|Z]; [eapply TSDrop; eauto|].
    apply TSNone. rewrite (gr_other _ _ _ G i Z). now apply threads_other.
  - destruct (h_phase (g_threads s t)) eqn:P; try discriminate. destruct (h_live (g_threads s t)) as [|o r] eqn:L; [|discriminate].
    injection D as <-. destruct (Nat.eq_dec i t) as [->|E].
    + apply TSEnd; auto. now rewrite threads_same.
    + apply TSNone. now apply threads_other.
  - destruct (h_phase (g_threads s 0)) eqn:P; try discriminate. destruct (g_live s) as [|o r] eqn:L; [discriminate|].
    assert (K1 := statics_popped_ok s o r K L). destruct o; try (injection D as <-; now apply TSNone).
    destruct (performs 0 (body k) (with_statics r (SUser k :: g_gone s) s)) as [s1|] eqn:E; [|discriminate]. injection D as <-.
    assert (W : works 0 (with_statics r (SUser k :: g_gone s) s)) by (right; right; auto).
    destruct (performs_ok _ _ _ _ K1 W E) as (_ & G). destruct (Nat.eq_dec i 0) as [->|Z].
    + eapply TSExit; eauto.
    + apply TSNone. exact (gr_other _ _ _ G i Z).
Qed.
(** And to the static objects. *)
Lemma step_statics : forall l s s', okay s -> step body l s = Next s' ->
  (exists n, g_live s' = n ++ g_live s /\ g_gone s' = g_gone s /\ forall k, In (SUser k) n -> exists t, l = Static t k /\ n = [SUser k] /\ h_phase (g_threads s t) = Running /\ ~ smade (SUser k) s) \/
  (l = Exit /\ h_phase (g_threads s 0) = Over /\ exists o r n, g_live s = o :: r /\ g_live s' = n ++ r /\ g_gone s' = o :: g_gone s /\ forall k, ~ In (SUser k) n).
Proof.
  intros l s s' K D. destruct l; cbn [step] in D.
  - destruct (h_phase (g_threads s t)) eqn:P; try discriminate. injection D as <-. left. exists []. cbn. split; auto. split; auto. intros ? [].
  - destruct (h_phase (g_threads s t)) eqn:P; try discriminate. destruct (perform t u s) as [s1|] eqn:E; [|discriminate]. injection D as <-.
    destruct (perform_ok _ _ _ _ K (or_introl P) E) as (_ & G & _). destruct (gr_slive _ _ _ G) as (n & N & U). left. exists n. split; auto.
    split; [exact (gr_sgone _ _ _ G)|]. intros k X. destruct (U k X).
  - destruct (h_phase (g_threads s t)) eqn:P; try discriminate. unfold def_tls, plain, bind in D.
    destruct (inb tls_dec (TUser k) (h_gone (g_threads s t))) eqn:E1; [discriminate|].
    left. exists []. cbn. destruct (inb tls_dec (TUser k) (h_live (g_threads s t))) eqn:E2; injection D as <-; (split; [auto|split; [auto|intros ? []]]).
  - destruct (h_phase (g_threads s t)) eqn:P; try discriminate. unfold def_static, plain, bind in D.
    destruct (inb stat_dec (SUser k) (g_gone s)) eqn:E1; [discriminate|]. apply inb_false in E1.
    destruct (inb stat_dec (SUser k) (g_live s)) eqn:E2; injection D as <-; left.
    + exists []. cbn. split; auto. split; auto. intros ? [].
    + apply inb_false in E2. exists [SUser k]. cbn. split; auto. split; auto. intros k' [X|[]]. injection X as <-. exists t. split; auto. split; auto. split; auto.
      intros [X|X]; contradiction.
  - destruct (h_phase (g_threads s t)) eqn:P; try discriminate. injection D as <-. left. exists []. cbn. split; auto. split; auto. intros ? [].
  - destruct (h_phase (g_threads s t)) eqn:P; try discriminate. destruct (h_live (g_threads s t)) as [|o r] eqn:L; [discriminate|].
    fold (popped t o r s) in D. destruct (destroy_tls body t o (popped t o r s)) as [s1|] eqn:E; [|discriminate]. injection D as <-.
    destruct (drop_ok _ _ _ _ _ K P L E) as (_ & _ & _ & G). destruct (gr_slive _ _ _ G) as (n & N & U). left. exists n. split; auto.
    split; [exact (gr_sgone _ _ _ G)|]. intros k X. destruct (U k X).
  - destruct (h_phase (g_threads s t)) eqn:P; try discriminate. destruct (h_live (g_threads s t)) as [|o r] eqn:L; [|discriminate].
    injection D as <-. left. exists []. cbn. split; auto. split; auto. intros ? [].
  - destruct (h_phase (g_threads s 0)) eqn:P; try discriminate. destruct (g_live s) as [|o r] eqn:L; [discriminate|].
    right. split; auto. split; auto. exists o, r. assert (K1 := statics_popped_ok s o r K L).
    destruct o; try (injection D as <-; exists []; cbn; split; [auto|split; [auto|split; [auto|intros ? []]]]).
    destruct (performs 0 (body k) (with_statics r (SUser k :: g_gone s) s)) as [s1|] eqn:E; [|discriminate]. injection D as <-.
    assert (W : works 0 (with_statics r (SUser k :: g_gone s) s)) by (right; right; auto).
    destruct (performs_ok _ _ _ _ K1 W E) as (_ & G). destruct (gr_slive _ _ _ G) as (n & N & U). exists n. split; auto. split; auto. split; auto. exact (gr_sgone _ _ _ G).
Qed.

Lemma thread_phase : forall l t s s', thread_step l t s s' -> h_phase (g_threads s' t) = h_phase (g_threads s t) \/
  (l = Start t /\ h_phase (g_threads s t) = Unborn /\ h_phase (g_threads s' t) = Running) \/
  (l = Return t /\ h_phase (g_threads s t) = Running /\ h_phase (g_threads s' t) = Unwinding) \/
  (l = End t /\ h_phase (g_threads s t) = Unwinding /\ h_phase (g_threads s' t) = Over).
Proof.
  intros l t s s' [E| -> P E| -> P E| -> P L E|u -> P E G|k -> P N ->|o r -> P L E G|k r -> -> P L K E G].
  - rewrite E. auto.
  - rewrite E. right. left. auto.
  - rewrite E. right. right. left. auto.
  - rewrite E. right. right. right. auto.
  - left. exact (gr_phase _ _ _ G).
  - left. apply push_phase.
  - left. rewrite (gr_phase _ _ _ G). now apply popped_phase.
  - left. rewrite (gr_phase _ _ _ G). reflexivity.
Qed.
Lemma phases : forall ls s, reached body ls s -> forall t,
  match h_phase (g_threads s t) with
  | Unborn => True
  | Running => t = 0 \/ In (Start t) ls
  | Unwinding => (t = 0 \/ In (Start t) ls) /\ In (Return t) ls
  | Over => (t = 0 \/ In (Start t) ls) /\ In (Return t) ls /\ In (End t) ls
  end.
Proof.
  induction ls as [|l ls IH] using rev_ind; intros s R t.
  - injection R as <-. cbn. destruct (t =? 0) eqn:E; cbn; auto. apply Nat.eqb_eq in E. auto.
  - destruct (reached_snoc _ _ _ R) as (s1 & R1 & D). assert (IH1 := IH _ R1 t). assert (K1 := reached_ok _ _ R1).
    destruct (thread_phase _ _ _ _ (step_thread _ _ _ t K1 D)) as [P|[(-> & P1 & P2)|[(-> & P1 & P2)|(-> & P1 & P2)]]].
    + rewrite P. destruct (h_phase (g_threads s1 t)); rewrite ?in_app_iff; tauto.
    + rewrite P2. rewrite in_app_iff. cbn. auto.
    + rewrite P2. rewrite P1 in IH1. rewrite !in_app_iff. cbn. tauto.
    + rewrite P2. rewrite P1 in IH1. rewrite !in_app_iff. cbn. tauto.
Qed.

(** A static object with a tracepoint in its destructor, in a program whose main thread has traced. *)
Lemma static_stays : forall ls s t k f g, reached body ls s -> In (Do 0 (UTrace f)) ls -> In (Static t k) ls -> In (UTrace g) (body k) -> In (SUser k) (g_live s).
Proof.
  intros ls s t k f g R T S B.
  assert (Q : In (SUser k) (g_live s) \/ (h_phase (g_threads s 0) = Over /\ ~ In (Do 0 (UTrace f)) ls)); [|destruct Q as [Q|[_ Q]]; [exact Q|contradiction]].
  clear T. revert s R S. induction ls as [|l ls IH] using rev_ind; intros s R S; [contradiction|].
  destruct (reached_snoc _ _ _ R) as (s1 & R1 & D). assert (K1 := reached_ok _ _ R1).
  apply in_app_or in S as [S|[->|[]]].
  - destruct (IH s1 R1 S) as [I|[O N]].
    + destruct (step_statics _ _ _ K1 D) as [(n & L & _)|(-> & O & o & r & n & L & L' & _ & _)].
      * left. rewrite L. apply in_or_app. auto.
      * rewrite L in I. destruct I as [->|I]; [|left; rewrite L'; apply in_or_app; auto].
        right. assert (KO : h_phase (g_threads s 0) = Over) by exact (kp_over _ _ (step_keeps _ _ _ K1 D) 0 O). split; auto.
        intros X. apply in_app_or in X as [X|[X|[]]]; [|discriminate X].
        assert (PH := phases _ _ R1 0). rewrite O in PH. destruct PH as (_ & _ & EN).
        assert (G : In TLeaveBuffer (h_gone (g_threads s1 0))) by (apply (ended_gone ls); auto; exists (UTrace f); split; auto; cbn; auto).
        cbn [step] in D. rewrite O, L in D. rewrite (performs_late (body k) 0 g) in D; [discriminate D| | | |exact B].
        -- exact (statics_popped_ok _ _ _ K1 L).
        -- right. right. auto.
        -- exact G.
    + right. split; [exact (kp_over _ _ (step_keeps _ _ _ K1 D) 0 O)|]. intros X. apply in_app_or in X as [X|[->|[]]]; [contradiction|].
      cbn [step] in D. rewrite O in D. discriminate D.
  - left. cbn [step] in D. destruct (h_phase (g_threads s1 t)); try discriminate. unfold def_static, plain, bind in D.
    destruct (inb stat_dec (SUser k) (g_gone s1)); [discriminate|]. destruct (inb stat_dec (SUser k) (g_live s1)) eqn:E; injection D as <-.
    + now apply inb_true in E.
    + now left.
Qed.

(** A thread-local object made before the first tracepoint. *)
Lemma perform_adds : forall t u s s', okay s -> works t s -> (forall f, u <> UTrace f) -> perform t u s = Some s' ->
  forall x, In x (h_live (g_threads s' t)) -> In x (h_live (g_threads s t)) \/ In x (needs u).
Proof.
  intros t u s s' K W N D x X. destruct u; cbn [perform] in D.
  - destruct (N f eq_refl).
  - rewrite (static_threads _ _ _ D) in X. auto.
  - unfold set_name in D. destruct (def_static SNames plain s) as [s1|] eqn:E1; [|discriminate]. cbn [bind] in D.
    destruct (def_tls t TLeaveName plain s1) as [s2|] eqn:E2; [|discriminate]. cbn [bind] in D. injection D as <-. cbn [g_threads with_tables] in X.
    unfold def_tls, plain, bind in E2. destruct (inb tls_dec TLeaveName (h_gone (g_threads s1 t))); [discriminate|].
    destruct (inb tls_dec TLeaveName (h_live (g_threads s1 t))); injection E2 as <-.
    + rewrite (static_threads _ _ _ E1) in X. auto.
    + rewrite push_live, Nat.eqb_refl, (static_threads _ _ _ E1) in X. destruct X as [X|X]; auto. right. now left.
  - rewrite (static_threads _ _ _ D) in X. auto.
  - destruct (get_state_ok _ _ _ K W D) as (_ & _ & _ & C). destruct (C x X) as [->|C']; auto. right. now left.
  - rewrite (static_threads _ _ _ D) in X. auto.
Qed.
Lemma no_buffer : forall ls s t, reached body ls s -> h_phase (g_threads s t) = Running -> (forall f, ~ In (Do t (UTrace f)) ls) -> ~ In TLeaveBuffer (h_live (g_threads s t)).
Proof.
  induction ls as [|l ls IH] using rev_ind; intros s t R P N.
  - injection R as <-. auto.
  - destruct (reached_snoc _ _ _ R) as (s1 & R1 & D). assert (K1 := reached_ok _ _ R1).
    assert (N1 : forall f, ~ In (Do t (UTrace f)) ls) by (intros f X; apply (N f); apply in_or_app; auto).
    destruct (step_thread _ _ _ t K1 D) as [E| -> P1 E| -> P1 E| -> P1 L E|u -> P1 E G|k -> P1 N' ->|o r -> P1 L E G|k r -> -> P1 L K E G].
    + rewrite E in *. exact (IH _ _ R1 P N1).
    + rewrite E. cbn. rewrite (proj1 (ok_unborn _ K1 t P1)). auto.
    + rewrite E in P. discriminate P.
    + rewrite E in P. discriminate P.
    + intro X. assert (U : forall f, u <> UTrace f) by (intros f ->; apply (N f); apply in_or_app; right; now left).
      destruct (perform_adds _ _ _ _ K1 (or_introl P1) U E _ X) as [Y|Y]; [exact (IH _ _ R1 P1 N1 Y)|].
      destruct u; cbn in Y; try contradiction; try (destruct Y as [Y|[]]; discriminate Y). destruct (U f eq_refl).
    + rewrite push_live, Nat.eqb_refl. intros [X|X]; [discriminate X|]. exact (IH _ _ R1 P1 N1 X).
    + rewrite (gr_phase _ _ _ G), popped_phase, P1 in P; auto. discriminate P.
    + rewrite (gr_phase _ _ _ G) in P. cbn in P. rewrite P1 in P. discriminate P.
Qed.
Lemma early_stays : forall a b s t k f g, reached body (a ++ Local t k :: b) s -> (forall f', ~ In (Do t (UTrace f')) a) ->
  In (Do t (UTrace f)) b -> In (UTrace g) (body k) -> In (TUser k) (h_live (g_threads s t)) /\ ~ In (End t) (a ++ Local t k :: b).
Proof.
  intros a b s t k f g R N T B.
  assert (Q : (exists x y, h_live (g_threads s t) = x ++ TUser k :: y /\ ~ In TLeaveBuffer y) \/ (left t s /\ ~ In (Do t (UTrace f)) (a ++ Local t k :: b))).
  { clear T. revert s R. induction b as [|l b IH] using rev_ind; intros s R.
    - destruct (reached_snoc _ _ _ R) as (s1 & R1 & D). assert (K1 := reached_ok _ _ R1). cbn [step] in D.
      destruct (h_phase (g_threads s1 t)) eqn:P; try discriminate. assert (NB := no_buffer _ _ _ R1 P N). unfold def_tls, plain, bind in D.
      destruct (inb tls_dec (TUser k) (h_gone (g_threads s1 t))); [discriminate|]. destruct (inb tls_dec (TUser k) (h_live (g_threads s1 t))) eqn:E; injection D as <-; left.
      + apply inb_true in E. apply in_split in E as (x & y & E). exists x, y. split; auto. intros X. apply NB. rewrite E. apply in_or_app. right. now right.
      + rewrite push_live, Nat.eqb_refl. exists [], (h_live (g_threads s1 t)). auto.
    - rewrite app_comm_cons, app_assoc in R. destruct (reached_snoc _ _ _ R) as (s1 & R1 & D). assert (K1 := reached_ok _ _ R1).
      destruct (IH s1 R1) as [(x & y & L & NY)|[F NT]].
      + destruct (step_thread _ _ _ t K1 D) as [E| -> P E| -> P E| -> P L' E|u -> P E G|k' -> P N' ->|o r -> P L' E G|k' r -> -> P L' K E G].
        * left. rewrite E. eauto.
        * left. rewrite E. cbn. eauto.
        * left. rewrite E. cbn. eauto.
        * left. rewrite E. cbn. eauto.
        * left. destruct (gr_live _ _ _ G) as (n & LN & _). rewrite LN, L. exists (n ++ x), y. rewrite app_assoc. auto.
        * left. rewrite push_live, Nat.eqb_refl, L. exists (TUser k' :: x), y. auto.
        * destruct (gr_live _ _ _ G) as (n & LN & _). rewrite popped_live, Nat.eqb_refl in LN. rewrite L in L'. destruct x as [|z x].
          -- cbn in L'. injection L' as <- <-. right. split.
             ++ apply (kp_left _ _ (step_keeps _ _ _ K1 D)). left. exact P.
             ++ rewrite app_comm_cons, app_assoc. intros X. apply in_app_or in X as [X|[X|[]]]; [|discriminate X].
                destruct (did _ _ _ _ R1 X) as [M _]. assert (M1 : made t TLeaveBuffer s1) by (apply M; cbn; auto).
                destruct M1 as [M1|M1]; [rewrite L in M1; destruct M1 as [M1|M1]; [discriminate M1|contradiction]|].
                cbn [destroy_tls] in E. assert (PK : okay (popped t (TUser k) y s1)).
                { change (popped t (TUser k) y s1) with (with_tables (g_active s1) (g_orphans s1) (g_states s1) (g_named s1) (popped t (TUser k) y s1)).
                  apply popped_plain; auto; discriminate. }
                rewrite (performs_late (body k) t g) in E; [discriminate E|exact PK| | |exact B].
                ** right. left. rewrite popped_phase; auto.
                ** rewrite popped_gone, Nat.eqb_refl. now right.
          -- cbn in L'. injection L' as <- <-. left. rewrite LN. exists (n ++ x), y. rewrite app_assoc. auto.
        * destruct (gr_live _ _ _ G) as (n & LN & _). left. rewrite LN. cbn. rewrite L. exists (n ++ x), y. rewrite app_assoc. auto.
      + right. split; [exact (kp_left _ _ (step_keeps _ _ _ K1 D) t F)|]. rewrite app_comm_cons, app_assoc. intros X. apply in_app_or in X as [X|[->|[]]]; [contradiction|].
        cbn [step] in D. destruct F as [F|F]; rewrite F in D; discriminate D. }
  destruct Q as [(x & y & L & _)|[_ Q]]; [|exfalso; apply Q; apply in_or_app; right; now right].
  assert (I : In (TUser k) (h_live (g_threads s t))) by (rewrite L; apply in_or_app; right; now left). split; auto.
  intros EN. assert (O := ended _ _ _ R EN). destruct (Nat.eq_dec t 0) as [->|Z].
  - assert (X : In (TUser k) (h_gone (g_threads s 0))).
    { apply in_split in EN as (c & d & EN). rewrite EN in R. destruct (reached_cut _ _ _ _ R) as (s1 & s2 & R1 & D & R2 & KP).
      assert (K1 := reached_ok _ _ R1). assert (D' := D). cbn [step] in D'. destruct (h_phase (g_threads s1 0)) eqn:P; try discriminate.
      destruct (h_live (g_threads s1 0)) eqn:L1; [|discriminate]. injection D' as <-.
      apply (kp_gone _ _ KP). rewrite threads_same. cbn [h_gone with_phase].
      assert (LC : In (Local 0 k) c).
      { assert (Y : In (Local 0 k) (c ++ End 0 :: d)) by (rewrite <- EN; apply in_or_app; right; now left).
        apply in_app_or in Y as [Y|[Y|Y]]; auto; [discriminate Y|]. exfalso. apply in_split in Y as (d1 & d2 & ->).
        rewrite run_app in R2. destruct (run body d1 _) as [s3| |] eqn:E3 in R2; try discriminate.
        assert (K2 := step_ok _ _ _ K1 D).
        assert (O3 := kp_over _ _ (run_keeps _ _ _ K2 E3) 0). rewrite threads_same in O3. specialize (O3 eq_refl). cbn [run step] in R2. rewrite O3 in R2. discriminate R2. }
      apply in_split in LC as (c1 & c2 & ->). destruct (reached_cut _ _ _ _ R1) as (s4 & s5 & R4 & D4 & _ & KP4).
      assert (M : made 0 (TUser k) s5).
      { left. cbn [step] in D4. destruct (h_phase (g_threads s4 0)); try discriminate. unfold def_tls, plain, bind in D4.
        destruct (inb tls_dec (TUser k) (h_gone (g_threads s4 0))); [discriminate|]. destruct (inb tls_dec (TUser k) (h_live (g_threads s4 0))) eqn:E5; injection D4 as <-.
        - now apply inb_true in E5.
        - rewrite push_live. now left. }
      destruct (kp_made _ _ KP4 _ _ M) as [Y|Y]; auto. rewrite L1 in Y. contradiction. }
    exact (live_gone _ _ _ (reached_ok _ _ R) I X).
  - rewrite (ok_over _ (reached_ok _ _ R) t Z O) in I. contradiction.
Qed.

(** Uses after the static objects have been destroyed. *)
Definition sneeds (u : use) : list stat :=
  match u with
  | UTrace f => [SPtr f]
  | UStrings => [SStrings]
  | USetName | UNames => [SNames]
  | USetState | USwitch => [SConfigurator]
  end.
Lemma perform_static : forall t u s s', okay s -> works t s -> perform t u s = Some s' -> incl (sneeds u) (g_live s').
Proof.
  intros t u s s' K W D. destruct u; cbn [perform] in D; intros o [<-|[]].
  - unfold trace in D. destruct (def_static (SPtr f) (def_static SConfigurator plain) s) as [s1|] eqn:E1; [|discriminate].
    assert (I : In (SPtr f) (g_live s1)).
    { unfold def_static at 1, bind in E1. destruct (inb stat_dec (SPtr f) (g_gone s)); [discriminate|]. destruct (inb stat_dec (SPtr f) (g_live s)) eqn:X.
      - injection E1 as <-. now apply inb_true in X.
      - destruct (def_static SConfigurator plain s); [|discriminate]. injection E1 as <-. now left. }
    assert (T : trace t f s1 = Some s').
    { unfold trace. destruct (def_ptr_ok t f s s1 K E1) as (K1 & G1 & _). unfold def_static at 1. assert (N : inb stat_dec (SPtr f) (g_gone s1) = false).
      { apply inb_false. intro X. assert (ND := ok_statics _ K1). apply in_split in I as (a & b & I). rewrite I, <- app_assoc in ND. cbn in ND. apply NoDup_remove_2 in ND.
        apply ND. apply in_or_app. right. apply in_or_app. auto. }
      rewrite N. assert (Y : inb stat_dec (SPtr f) (g_live s1) = true) by now apply inb_true. rewrite Y. exact D. }
    destruct (def_ptr_ok t f s s1 K E1) as (K1 & G1 & _). destruct (trace_ok _ _ _ _ K1 (works_grows _ _ _ G1 W) T) as (_ & G & _). exact (grows_sin _ _ _ _ G I).
  - exact (proj1 (proj2 (proj2 (def_static_ok t _ _ _ K D (fun k => ltac:(discriminate)))))).
  - unfold set_name in D. destruct (def_static SNames plain s) as [s1|] eqn:E1; [|discriminate]. cbn [bind] in D.
    destruct (def_static_ok t _ _ _ K E1 (fun k => ltac:(discriminate))) as (_ & _ & I & _).
    destruct (def_tls t TLeaveName plain s1) as [s2|] eqn:E2; [|discriminate]. cbn [bind] in D. injection D as <-. cbn [g_live with_tables].
    unfold def_tls, plain, bind in E2. destruct (inb tls_dec TLeaveName (h_gone (g_threads s1 t))); [discriminate|].
    destruct (inb tls_dec TLeaveName (h_live (g_threads s1 t))); injection E2 as <-; exact I.
  - exact (proj1 (proj2 (proj2 (def_static_ok t _ _ _ K D (fun k => ltac:(discriminate)))))).
  - unfold get_state in D. destruct (def_static SConfigurator plain s) as [s1|] eqn:E1; [|discriminate]. cbn [bind] in D.
    destruct (def_static_ok t _ _ _ K E1 (fun k => ltac:(discriminate))) as (_ & _ & I & _).
    destruct (def_tls t TLeaveState plain s1) as [s2|] eqn:E2; [|discriminate]. cbn [bind] in D. injection D as <-. cbn [g_live with_tables].
    unfold def_tls, plain, bind in E2. destruct (inb tls_dec TLeaveState (h_gone (g_threads s1 t))); [discriminate|].
    destruct (inb tls_dec TLeaveState (h_live (g_threads s1 t))); injection E2 as <-; exact I.
  - exact (proj1 (proj2 (proj2 (def_static_ok t _ _ _ K D (fun k => ltac:(discriminate)))))).
Qed.
Lemma perform_static_gone : forall t u s o, In o (sneeds u) -> In o (g_gone s) -> perform t u s = None.
Proof.
  intros t u s o N G. destruct u; cbn in N; destruct N as [<-|[]]; cbn [perform].
  - unfold trace. now rewrite def_static_none.
  - now apply def_static_none.
  - unfold set_name. now rewrite def_static_none.
  - now apply def_static_none.
  - unfold get_state. now rewrite def_static_none.
  - now apply def_static_none.
Qed.
Lemma did_static : forall ls s t u, reached body ls s -> In (Do t u) ls -> forall o, In o (sneeds u) -> smade o s.
Proof.
  intros ls s t u R I o O. apply in_split in I as (a & b & ->). destruct (reached_cut _ _ _ _ R) as (s1 & s2 & R1 & D & _ & P).
  assert (K1 := reached_ok _ _ R1). cbn [step] in D. destruct (h_phase (g_threads s1 t)) eqn:PH; try discriminate.
  destruct (perform t u s1) as [s3|] eqn:E; [|discriminate]. injection D as ->. apply (kp_smade _ _ P). left. exact (perform_static _ _ _ _ K1 (or_introl PH) E o O).
Qed.
Lemma after_exit : forall ls s t t' u, reached body ls s -> In (Do t' u) ls -> g_live s = [] -> h_phase (g_threads s t) = Running -> run body (ls ++ [Do t u]) state0 = Undefined.
Proof.
  intros ls s t t' u R I L P. rewrite run_app, R. cbn [run step]. rewrite P. assert (N : exists o, In o (sneeds u)) by (destruct u; eexists; left; reflexivity).
  destruct N as (o & N). destruct (did_static _ _ _ _ R I o N) as [M|M]; [rewrite L in M; contradiction|]. rewrite (perform_static_gone t u s o N M). reflexivity.
Qed.
Lemma named_stays : forall b s t s', okay s -> t <> 0 -> In SNames (g_gone s) -> In TLeaveName (h_live (g_threads s t)) -> run body b s = Next s' ->
  In TLeaveName (h_live (g_threads s' t)) /\ ~ In (End t) b.
Proof.
  induction b as [|l b IH]; intros s t s' K Z G I R; cbn in R.
  - injection R as <-. auto.
  - destruct (step body l s) as [s1| |] eqn:D; try discriminate. assert (K1 := step_ok _ _ _ K D).
    assert (G1 := kp_sgone _ _ (step_keeps _ _ _ K D) _ G).
    assert (I1 : In TLeaveName (h_live (g_threads s1 t)) /\ l <> End t).
    { destruct (step_thread _ _ _ t K D) as [E| -> P E| -> P E| -> P L E|u -> P E Gr|k -> P N' ->|o r -> P L E Gr|k r -> Z' P L K' E Gr].
      - rewrite E. split; auto. intros ->. cbn [step] in D. destruct (h_phase (g_threads s t)); try discriminate. destruct (h_live (g_threads s t)); [contradiction|discriminate].
      - rewrite E. split; auto; discriminate.
      - rewrite E. split; auto; discriminate.
      - rewrite L in I. contradiction.
      - split; [exact (grows_in _ _ _ _ Gr I)|discriminate].
      - rewrite push_live, Nat.eqb_refl. split; [now right|discriminate].
      - split; [|discriminate]. apply (grows_in _ _ _ _ Gr). rewrite popped_live, Nat.eqb_refl. rewrite L in I. destruct I as [->|I]; auto. exfalso.
        cbn [destroy_tls] in E. change (g_gone (popped t TLeaveName r s)) with (g_gone s) in E.
        assert (X : inb stat_dec SNames (g_gone s) = true) by now apply inb_true. rewrite X in E. discriminate E.
      - contradiction. }
    destruct I1 as [I1 NE]. destruct (IH _ _ _ K1 Z G1 I1 R) as [A B]. split; auto. intros [X|X]; auto.
Qed.
Lemma named_never_ends : forall a b s s' t, reached body a s -> g_live s = [] -> t <> 0 -> In t (g_named s) -> reached body (a ++ b) s' -> ~ In (End t) b.
Proof.
  intros a b s s' t R L Z N R'. assert (K := reached_ok _ _ R). assert (I := proj1 (ok_named _ K t) N). unfold reached in R'. rewrite run_app, R in R'.
  assert (G : In SNames (g_gone s)).
  { assert (SM : forall ls s, reached body ls s -> forall t, In TLeaveName (h_live (g_threads s t)) -> smade SNames s).
    { clear. induction ls as [|l ls IH] using rev_ind; intros s R t I.
      - injection R as <-. contradiction.
      - destruct (reached_snoc _ _ _ R) as (s1 & R1 & D). assert (K1 := reached_ok _ _ R1). assert (KP := step_keeps _ _ _ K1 D).
        assert (PS : forall us x s0 s2, okay s0 -> works x s0 -> performs x us s0 = Some s2 -> In TLeaveName (h_live (g_threads s2 x)) -> In TLeaveName (h_live (g_threads s0 x)) \/ smade SNames s2).
        { clear. induction us as [|u us IH]; intros x s0 s2 K W D I; cbn [performs] in D; [injection D as <-; auto|].
          destruct (perform x u s0) as [s1|] eqn:E; [|discriminate]. cbn [bind] in D. destruct (perform_ok _ _ _ _ K W E) as (K1 & G1 & _).
          assert (W1 := works_grows _ _ _ G1 W). destruct (performs_ok _ _ _ _ K1 W1 D) as (_ & G2).
          destruct (IH _ _ _ K1 W1 D I) as [J|J]; auto. destruct u; cbn [perform] in E.
          - unfold trace in E. destruct (in_dec tls_dec TLeaveName (h_live (g_threads s0 x))) as [Y|Y]; auto. exfalso.
            assert (NM : ~ In x (g_named s0)) by (rewrite (ok_named _ K); auto). apply (ok_named _ K1) in J. apply NM. clear - E J.
            destruct (def_static (SPtr f) (def_static SConfigurator plain) s0) as [a1|] eqn:E1; [|discriminate]. cbn [bind] in E.
            destruct (def_tls x (TPtr f) (def_static SCollector plain) a1) as [a2|] eqn:E2; [|discriminate]. cbn [bind] in E.
            destruct (def_tls x (TBuffer f) (get_buffer x) a2) as [a3|] eqn:E3; [|discriminate]. cbn [bind] in E.
            destruct (def_static (SState f) plain a3) as [a4|] eqn:E4; [|discriminate]. cbn [bind] in E.
            destruct (def_tls x (TState f) (get_state x) a4) as [a5|] eqn:E5; [|discriminate]. cbn [bind] in E. injection E as <-. cbn [g_named with_log] in J.
            assert (NS : forall o a b, def_static o plain a = Some b -> g_named b = g_named a).
            { intros o a b D. unfold def_static, plain, bind in D. destruct (inb stat_dec o (g_gone a)); [discriminate|]. destruct (inb stat_dec o (g_live a)); injection D as <-; auto. }
            assert (NT : forall o i a b, def_tls x o i a = Some b -> (forall c, i a = Some c -> g_named c = g_named a) -> g_named b = g_named a).
            { intros o i a b D X. unfold def_tls, bind in D. destruct (inb tls_dec o (h_gone (g_threads a x))); [discriminate|].
              destruct (inb tls_dec o (h_live (g_threads a x))); [injection D as <-; auto|]. destruct (i a) as [c|] eqn:C; [|discriminate]. injection D as <-. exact (X c eq_refl). }
            assert (NB : forall a b, get_buffer x a = Some b -> g_named b = g_named a).
            { intros a b D. unfold get_buffer in D. destruct (def_static SCollector plain a) as [c|] eqn:C; [|discriminate]. cbn [bind] in D.
              destruct (def_tls x TLeaveBuffer plain c) as [d|] eqn:C2; [|discriminate]. injection D as <-. cbn [g_named with_tables].
              rewrite (NT _ _ _ _ C2), (NS _ _ _ C); auto. intros ? [= <-]; auto. }
            assert (NG : forall a b, get_state x a = Some b -> g_named b = g_named a).
            { intros a b D. unfold get_state in D. destruct (def_static SConfigurator plain a) as [c|] eqn:C; [|discriminate]. cbn [bind] in D.
              destruct (def_tls x TLeaveState plain c) as [d|] eqn:C2; [|discriminate]. injection D as <-. cbn [g_named with_tables].
              rewrite (NT _ _ _ _ C2), (NS _ _ _ C); auto. intros ? [= <-]; auto. }
            rewrite (NT _ _ _ _ E5 (NG _)), (NS _ _ _ E4), (NT _ _ _ _ E3 (NB _)), (NT _ _ _ _ E2 (NS _ _)) in J.
            unfold def_static at 1, bind in E1. destruct (inb stat_dec (SPtr f) (g_gone s0)); [discriminate|]. destruct (inb stat_dec (SPtr f) (g_live s0)); [injection E1 as <-; exact J|].
            destruct (def_static SConfigurator plain s0) as [c|] eqn:C; [|discriminate]. injection E1 as <-. cbn [g_named with_statics] in J. rewrite (NS _ _ _ C) in J. exact J.
          - rewrite (static_threads _ _ _ E) in J. auto.
          - right. apply (kp_smade _ _ (grows_keeps _ _ _ G2)). left. apply (perform_static x USetName s0 s1 K W E). now left.
          - rewrite (static_threads _ _ _ E) in J. auto.
          - destruct (get_state_ok _ _ _ K W E) as (_ & _ & _ & C). destruct (C _ J) as [X|X]; [discriminate X|auto].
          - rewrite (static_threads _ _ _ E) in J. auto. }
        destruct (step_thread _ _ _ t K1 D) as [E| -> P E| -> P E| -> P L E|u -> P E Gr|k -> P N' ->|o r -> P L E Gr|k r -> -> P L K' E Gr].
        + rewrite E in I. exact (kp_smade _ _ KP _ (IH _ R1 _ I)).
        + rewrite E in I. exact (kp_smade _ _ KP _ (IH _ R1 _ I)).
        + rewrite E in I. exact (kp_smade _ _ KP _ (IH _ R1 _ I)).
        + rewrite E in I. exact (kp_smade _ _ KP _ (IH _ R1 _ I)).
        + assert (E' : performs t [u] s1 = Some s) by (cbn; rewrite E; reflexivity). destruct (PS _ _ _ _ K1 (or_introl P) E' I) as [J|J]; auto. exact (kp_smade _ _ KP _ (IH _ R1 _ J)).
        + rewrite push_live, Nat.eqb_refl in I. destruct I as [I|I]; [discriminate I|]. exact (kp_smade _ _ KP _ (IH _ R1 _ I)).
        + assert (IN : forall a b c d, s = with_tables a b c d (popped t o r s1) \/ s = popped t o r s1 -> smade SNames s).
          { intros a b c d X. apply (kp_smade _ _ KP). apply (IH _ R1 t). rewrite L. right. destruct X as [-> | ->]; cbn [g_threads with_tables] in I; rewrite popped_live, Nat.eqb_refl in I; exact I. }
          destruct o; cbn [destroy_tls] in E; try (injection E as <-; eapply (IN [] [] [] []); auto; fail).
          * destruct (inb stat_dec SCollector (g_live (popped t TLeaveBuffer r s1)) || holds_collector (g_threads (popped t TLeaveBuffer r s1) t)); injection E as <-; [eapply IN; left; reflexivity|apply (IN [] [] [] []); right; reflexivity].
          * destruct (holds_configurator (popped t TLeaveState r s1)); injection E as <-; [eapply IN; left; reflexivity|apply (IN [] [] [] []); right; reflexivity].
          * destruct (inb stat_dec SNames (g_gone (popped t TLeaveName r s1))); [discriminate|]. injection E as <-. eapply IN; left; reflexivity.
          * assert (PK : okay (popped t (TUser k) r s1)).
            { change (popped t (TUser k) r s1) with (with_tables (g_active s1) (g_orphans s1) (g_states s1) (g_named s1) (popped t (TUser k) r s1)).
              apply popped_plain; auto; discriminate. }
            assert (W : works t (popped t (TUser k) r s1)) by (right; left; rewrite popped_phase; auto).
            destruct (PS _ _ _ _ PK W E I) as [J|J]; auto. rewrite popped_live, Nat.eqb_refl in J. apply (kp_smade _ _ KP). apply (IH _ R1 t). rewrite L. now right.
        + assert (W : works 0 (with_statics r (SUser k :: g_gone s1) s1)) by (right; right; auto).
          destruct (PS _ _ _ _ K' W E I) as [J|J]; auto. exact (kp_smade _ _ KP _ (IH _ R1 _ J)). }
    destruct (SM _ _ R t I) as [X|X]; auto. rewrite L in X. contradiction. }
  exact (proj2 (named_stays b s t s' K Z G I R')).
Qed.

(** Programs that take care. *)
Fixpoint urests (l : list tls) : Prop :=
  match l with
  | [] => True
  | TUser k :: r => (forall u, In u (body k) -> per_thread u = true -> incl (needs u) r) /\ urests r
  | _ :: r => urests r
  end.
Fixpoint srests (l : list stat) : Prop :=
  match l with
  | [] => True
  | SUser k :: r => (forall u, In u (body k) -> per_thread u = false /\ incl (sneeds u) r) /\ srests r
  | _ :: r => srests r
  end.
Lemma urests_app : forall n l, (forall k, ~ In (TUser k) n) -> urests l -> urests (n ++ l).
Proof.
  induction n as [|o n IH]; intros l U R; auto. assert (X : urests (n ++ l)) by (apply IH; auto; intros k I; apply (U k); now right).
  destruct o; cbn; auto. destruct (U k). now left.
Qed.
Lemma srests_app : forall n l, (forall k, ~ In (SUser k) n) -> srests l -> srests (n ++ l).
Proof.
  induction n as [|o n IH]; intros l U R; auto. assert (X : srests (n ++ l)) by (apply IH; auto; intros k I; apply (U k); now right).
  destruct o; cbn; auto. destruct (U k). now left.
Qed.
Record safe (ls : list label) (s : state) : Prop := {
  sf_reached : reached body ls s;
  sf_gone : g_gone s <> [] -> h_phase (g_threads s 0) = Over;
  sf_joined : In (Return 0) ls -> forall t, t <> 0 -> h_phase (g_threads s t) = Unborn \/ h_phase (g_threads s t) = Over;
  sf_tls : forall t, urests (h_live (g_threads s t));
  sf_static : srests (g_live s)
}.
Lemma safe0 : safe [] state0.
Proof. constructor; cbn; auto; try reflexivity; try contradiction. Qed.

Lemma safe_gone : forall ls s t, safe ls s -> (h_phase (g_threads s t) = Running \/ h_phase (g_threads s t) = Unwinding) -> g_gone s = [].
Proof.
  intros ls s t S W. destruct (g_gone s) eqn:G; auto. exfalso. assert (O : h_phase (g_threads s 0) = Over) by (apply (sf_gone _ _ S); rewrite G; discriminate).
  assert (PH := phases _ _ (sf_reached _ _ S) 0). rewrite O in PH. destruct PH as (_ & RT & _). destruct (Nat.eq_dec t 0) as [->|Z].
  - rewrite O in W. destruct W as [W|W]; discriminate W.
  - destruct (sf_joined _ _ S RT t Z) as [X|X]; rewrite X in W; destruct W as [W|W]; discriminate W.
Qed.
Lemma perform_some : forall t u s, okay s -> works t s -> (forall o, In o (needs u) -> ~ In o (h_gone (g_threads s t))) -> g_gone s = [] -> exists s', perform t u s = Some s'.
Proof.
  intros t u s K W N G. assert (SS : forall o x, g_gone x = [] -> exists y, def_static o plain x = Some y) by (intros; apply def_static_some; rewrite H; auto).
  destruct u; cbn [perform]; auto.
  - assert (GB : forall x, okay x -> works t x -> (exists f', In (TPtr f') (h_live (g_threads x t))) -> g_gone x = [] -> ~ In TLeaveBuffer (h_gone (g_threads x t)) -> exists y, get_buffer t x = Some y).
    { intros x Kx Wx F Gx NL. unfold get_buffer. destruct (SS SCollector x Gx) as (x1 & E1). rewrite E1. cbn [bind].
      destruct (def_tls_some t TLeaveBuffer plain x1) as (x2 & E2); [rewrite (static_threads _ _ _ E1); exact NL|eexists; reflexivity|]. rewrite E2. cbn. eauto. }
    assert (GS : forall x, g_gone x = [] -> ~ In TLeaveState (h_gone (g_threads x t)) -> exists y, get_state t x = Some y).
    { intros x Gx NL. unfold get_state. destruct (SS SConfigurator x Gx) as (x1 & E1). rewrite E1. cbn [bind].
      destruct (def_tls_some t TLeaveState plain x1) as (x2 & E2); [rewrite (static_threads _ _ _ E1); exact NL|eexists; reflexivity|]. rewrite E2. cbn. eauto. }
    unfold trace.
    assert (X1 : exists s1, def_static (SPtr f) (def_static SConfigurator plain) s = Some s1).
    { unfold def_static at 1. rewrite G. cbn [inb]. destruct (inb stat_dec (SPtr f) []) eqn:Y; [apply inb_true in Y; contradiction|].
      destruct (inb stat_dec (SPtr f) (g_live s)); eauto. destruct (SS SConfigurator s G) as (y & ->). cbn. eauto. }
    destruct X1 as (s1 & E1). rewrite E1. cbn [bind]. destruct (def_ptr_ok t f s s1 K E1) as (K1 & G1 & T1). assert (W1 := works_grows _ _ _ G1 W).
    assert (N1 : forall o, In o (needs (UTrace f)) -> ~ In o (h_gone (g_threads s1 t))) by (rewrite T1; exact N). assert (GG1 : g_gone s1 = []) by now rewrite (gr_sgone _ _ _ G1).
    destruct (def_tls_some t (TPtr f) (def_static SCollector plain) s1) as (s2 & E2); [apply N1; cbn; auto|auto|]. rewrite E2. cbn [bind].
    destruct (def_tls_ok t (TPtr f) (def_static SCollector plain) s1 s2 K1 W1 (fun k => ltac:(discriminate)) ltac:(discriminate) ltac:(discriminate)) with (2 := E2) as (K2 & G2 & I2 & _).
    { intros si X. destruct (def_static_ok t _ _ _ K1 X (fun k => ltac:(discriminate))) as (Ki & Gi & _ & Ti). rewrite Ti. split; auto. split; auto. split; auto.
      split; [intros ? []|]. intro Z; discriminate Z. }
    assert (W2 := works_grows _ _ _ G2 W1). assert (GG2 : g_gone s2 = []) by now rewrite (gr_sgone _ _ _ G2).
    assert (N2 : forall o, In o (needs (UTrace f)) -> ~ In o (h_gone (g_threads s2 t))) by (rewrite (gr_gone _ _ _ G2); exact N1).
    destruct (def_tls_some t (TBuffer f) (get_buffer t) s2) as (s3 & E3); [apply N2; cbn; auto|apply GB; auto; [eauto|apply N2; cbn; auto]|]. rewrite E3. cbn [bind].
    destruct (def_tls_ok t (TBuffer f) (get_buffer t) s2 s3 K2 W2 (fun k => ltac:(discriminate)) ltac:(discriminate) ltac:(discriminate)) with (2 := E3) as (K3 & G3 & I3 & _).
    { intros si X. destruct (get_buffer_ok t _ _ K2 W2 (ex_intro _ f I2) X) as (Ki & Gi & Ii & Ni). split; auto. split; auto. split.
      - split; [|intro Z; discriminate Z]. intros d [<-|[<-|[]]]; auto. exact (grows_in _ _ _ _ Gi I2).
      - intros Y. destruct (Ni _ Y) as [Z|Z]; [discriminate Z|exact Z]. }
    assert (GG3 : g_gone s3 = []) by now rewrite (gr_sgone _ _ _ G3).
    destruct (SS (SState f) s3 GG3) as (s4 & E4). rewrite E4. cbn [bind].
    destruct (def_static_ok t _ _ _ K3 E4 (fun k => ltac:(discriminate))) as (K4 & G4 & _ & T4). assert (GG4 : g_gone s4 = []) by now rewrite (gr_sgone _ _ _ G4).
    assert (N4 : forall o, In o (needs (UTrace f)) -> ~ In o (h_gone (g_threads s4 t))) by (rewrite T4, (gr_gone _ _ _ G3); exact N2).
    destruct (def_tls_some t (TState f) (get_state t) s4) as (s5 & E5); [apply N4; cbn; auto|apply GS; auto; apply N4; cbn; tauto|]. rewrite E5. cbn. eauto.
  - unfold set_name. destruct (SS SNames s G) as (s1 & E1). rewrite E1. cbn [bind].
    destruct (def_tls_some t TLeaveName plain s1) as (s2 & E2); [rewrite (static_threads _ _ _ E1); apply N; cbn; auto|eexists; reflexivity|]. rewrite E2. cbn. eauto.
  - unfold get_state. destruct (SS SConfigurator s G) as (s1 & E1). rewrite E1. cbn [bind].
    destruct (def_tls_some t TLeaveState plain s1) as (s2 & E2); [rewrite (static_threads _ _ _ E1); apply N; cbn; auto|eexists; reflexivity|]. rewrite E2. cbn. eauto.
Qed.
Lemma performs_some : forall us t s, okay s -> works t s -> g_gone s = [] -> (forall u, In u us -> per_thread u = true -> incl (needs u) (h_live (g_threads s t))) ->
  exists s', performs t us s = Some s'.
Proof.
  induction us as [|u us IH]; intros t s K W G N; cbn [performs]; eauto.
  destruct (perform_some t u s K W) as (s1 & E); auto.
  { intros o O X. destruct (per_thread u) eqn:P; [|destruct u; try discriminate P; contradiction]. exact (live_gone _ _ _ K (N u (or_introl eq_refl) P o O) X). }
  rewrite E. cbn [bind]. destruct (perform_ok _ _ _ _ K W E) as (K1 & G1 & _). apply IH; auto.
  - exact (works_grows _ _ _ G1 W).
  - now rewrite (gr_sgone _ _ _ G1).
  - intros u' U P o O. apply (grows_in _ _ _ _ G1). exact (N u' (or_intror U) P o O).
Qed.
Lemma perform_static_some : forall t u s, per_thread u = false -> (forall o, In o (sneeds u) -> ~ In o (g_gone s)) -> exists s', perform t u s = Some s' .
Proof.
  intros t u s P N. destruct u; try discriminate P; cbn [perform]; apply def_static_some; apply N; now left.
Qed.
Lemma performs_static_some : forall us t s, okay s -> works t s -> (forall u, In u us -> per_thread u = false /\ incl (sneeds u) (g_live s)) ->
  exists s', performs t us s = Some s'.
Proof.
  induction us as [|u us IH]; intros t s K W N; cbn [performs]; eauto. destruct (N u (or_introl eq_refl)) as [P I].
  destruct (perform_static_some t u s P) as (s1 & E).
  { intros o O X. apply I in O. assert (ND := ok_statics _ K). apply in_split in O as (a & b & O). rewrite O, <- app_assoc in ND. cbn in ND. apply NoDup_remove_2 in ND.
    apply ND. apply in_or_app. right. apply in_or_app. auto. }
  rewrite E. cbn [bind]. destruct (perform_ok _ _ _ _ K W E) as (K1 & G1 & _). apply IH; auto.
  - exact (works_grows _ _ _ G1 W).
  - intros u' U. destruct (N u' (or_intror U)) as [P' I']. split; auto. intros o O. exact (grows_sin _ _ _ _ G1 (I' o O)).
Qed.

Lemma safe_defined : forall ls s l, safe ls s -> step body l s <> Undefined.
Proof.
  intros ls s l S D. assert (R := sf_reached _ _ S). assert (K := reached_ok _ _ R). destruct l; cbn [step] in D.
  - destruct (h_phase (g_threads s t)); discriminate D.
  - destruct (h_phase (g_threads s t)) eqn:P; try discriminate. destruct (perform_some t u s K (or_introl P)) as (s1 & E).
    + rewrite (ok_running _ K t P). auto.
    + exact (safe_gone _ _ t S (or_introl P)).
    + rewrite E in D. discriminate D.
  - destruct (h_phase (g_threads s t)) eqn:P; try discriminate. destruct (def_tls_some t (TUser k) plain s) as (s1 & E).
    + rewrite (ok_running _ K t P). auto.
    + eexists; reflexivity.
    + rewrite E in D. discriminate D.
  - destruct (h_phase (g_threads s t)) eqn:P; try discriminate. destruct (def_static_some (SUser k) s) as (s1 & E).
    + rewrite (safe_gone _ _ t S (or_introl P)). auto.
    + rewrite E in D. discriminate D.
  - destruct (h_phase (g_threads s t)); discriminate D.
  - destruct (h_phase (g_threads s t)) eqn:P; try discriminate. destruct (h_live (g_threads s t)) as [|o r] eqn:L; [discriminate|].
    fold (popped t o r s) in D. assert (G := safe_gone _ _ t S (or_intror P)). destruct (destroy_tls body t o (popped t o r s)) eqn:E; [discriminate D|].
    destruct o; cbn [destroy_tls] in E; try discriminate E.
    + destruct (inb stat_dec SCollector (g_live (popped t TLeaveBuffer r s)) || holds_collector (g_threads (popped t TLeaveBuffer r s) t)); discriminate E.
    + destruct (holds_configurator (popped t TLeaveState r s)); discriminate E.
    + change (g_gone (popped t TLeaveName r s)) with (g_gone s) in E. rewrite G in E. cbn in E. discriminate E.
    + assert (PK : okay (popped t (TUser k) r s)).
      { change (popped t (TUser k) r s) with (with_tables (g_active s) (g_orphans s) (g_states s) (g_named s) (popped t (TUser k) r s)).
        apply popped_plain; auto; discriminate. }
      destruct (performs_some (body k) t (popped t (TUser k) r s)) as (s1 & E1); auto.
      * right. left. rewrite popped_phase; auto.
      * rewrite popped_live, Nat.eqb_refl. assert (U := sf_tls _ _ S t). rewrite L in U. exact (proj1 U).
      * rewrite E1 in E. discriminate E.
  - destruct (h_phase (g_threads s t)); try discriminate. destruct (h_live (g_threads s t)); discriminate D.
  - destruct (h_phase (g_threads s 0)) eqn:P; try discriminate. destruct (g_live s) as [|o r] eqn:L; [discriminate|].
    destruct o; try discriminate D. destruct (performs_static_some (body k) 0 (with_statics r (SUser k :: g_gone s) s)) as (s1 & E1).
    + exact (statics_popped_ok _ _ _ K L).
    + right. right. auto.
    + cbn. assert (U := sf_static _ _ S). rewrite L in U. exact (proj1 U).
    + rewrite E1 in D. discriminate D.
Qed.
Definition care (a : list label) (l : label) : Prop :=
  match l with
  | Local t k => In (Local t k) a \/ forall u, In u (body k) -> per_thread u = true -> In (Do t u) a
  | Static _ k => (exists t', In (Static t' k) a) \/ forall u, In u (body k) -> per_thread u = false /\ exists t', In (Do t' u) a
  | Start _ => ~ In (Return 0) a
  | Return 0 => forall t, In (Start t) a -> In (End t) a
  | _ => True
  end.
Lemma users_dec : forall n, (exists k, In (SUser k) n) \/ forall k, ~ In (SUser k) n.
Proof.
  induction n as [|o n [(k & I)|N]].
  - right. intros k [].
  - left. exists k. now right.
  - destruct o; try (right; intros k' [X|X]; [discriminate X|exact (N k' X)]). left. exists k. now left.
Qed.
Lemma safe_step : forall ls s l s', safe ls s -> care ls l -> step body l s = Next s' -> safe (ls ++ [l]) s'.
Proof.
  intros ls s l s' S C D. assert (R := sf_reached _ _ S). assert (K := reached_ok _ _ R).
  assert (R' : reached body (ls ++ [l]) s') by (unfold reached in *; rewrite run_app, R; cbn; now rewrite D).
  constructor; auto.
  - intros G. destruct (step_statics _ _ _ K D) as [(n & _ & E & _)|(_ & O & _)].
    + rewrite E in G. exact (kp_over _ _ (step_keeps _ _ _ K D) 0 (sf_gone _ _ S G)).
    + exact (kp_over _ _ (step_keeps _ _ _ K D) 0 O).
  - intros I t Z. apply in_app_or in I as [I|[->|[]]].
    + destruct (thread_phase _ _ _ _ (step_thread _ _ _ t K D)) as [P|[(-> & P1 & P2)|[(-> & P1 & P2)|(-> & P1 & P2)]]].
      * rewrite P. exact (sf_joined _ _ S I t Z).
      * destruct (C I).
      * destruct (sf_joined _ _ S I t Z) as [X|X]; rewrite X in P1; discriminate P1.
      * auto.
    + cbn [care] in C. destruct (thread_phase _ _ _ _ (step_thread _ _ _ t K D)) as [P|[(X & _)|[(X & _)|(X & _)]]]; try discriminate X; [|injection X as <-; contradiction].
      rewrite P. assert (PH := phases _ _ R t). destruct (h_phase (g_threads s t)) eqn:PT; auto; exfalso.
      * destruct PH as [PH|PH]; [contradiction|]. apply C in PH. rewrite (ended _ _ _ R PH) in PT. discriminate PT.
      * destruct PH as [[PH|PH] _]; [contradiction|]. apply C in PH. rewrite (ended _ _ _ R PH) in PT. discriminate PT.
  - intros t. assert (U := sf_tls _ _ S t).
    destruct (step_thread _ _ _ t K D) as [E| -> P E| -> P E| -> P L E|u -> P E Gr|k -> P N' ->|o r -> P L E Gr|k r -> -> P L K' E Gr]; try (rewrite E; exact U).
    + destruct (gr_live _ _ _ Gr) as (n & LN & NU). rewrite LN. apply urests_app; auto.
    + rewrite push_live, Nat.eqb_refl. cbn. split; auto. cbn [care] in C. destruct C as [C|C].
      * exfalso. apply N'. apply in_split in C as (a & b & ->). destruct (reached_cut _ _ _ _ R) as (s4 & s5 & R4 & D4 & _ & KP4).
        assert (M : made t (TUser k) s5).
        { left. cbn [step] in D4. destruct (h_phase (g_threads s4 t)); try discriminate. unfold def_tls, plain, bind in D4.
          destruct (inb tls_dec (TUser k) (h_gone (g_threads s4 t))); [discriminate|]. destruct (inb tls_dec (TUser k) (h_live (g_threads s4 t))) eqn:E5; injection D4 as <-.
          - now apply inb_true in E5.
          - rewrite push_live, Nat.eqb_refl. now left. }
        destruct (kp_made _ _ KP4 _ _ M) as [Y|Y]; auto. rewrite (ok_running _ K t P) in Y. contradiction.
      * intros u Iu Pu o O. destruct (did _ _ _ _ R (C u Iu Pu)) as [M _]. destruct (M o O) as [X|X]; auto. rewrite (ok_running _ K t P) in X. contradiction.
    + destruct (gr_live _ _ _ Gr) as (n & LN & NU). rewrite LN, popped_live, Nat.eqb_refl. apply urests_app; auto. rewrite L in U. destruct o; cbn in U; tauto.
    + destruct (gr_live _ _ _ Gr) as (n & LN & NU). rewrite LN. apply urests_app; auto.
  - assert (U := sf_static _ _ S). destruct (step_statics _ _ _ K D) as [(n & E & _ & NU)|(_ & O & o & r & n & L & L' & _ & NU)].
    + rewrite E. destruct (users_dec n) as [(ku & I)|I].
      * destruct (NU _ I) as (t & -> & -> & P & NM). cbn. split; auto. cbn [care] in C. destruct C as [(t' & C)|C].
        -- exfalso. apply NM. apply in_split in C as (a & b & ->). destruct (reached_cut _ _ _ _ R) as (s4 & s5 & R4 & D4 & _ & KP4).
           apply (kp_smade _ _ KP4). left. cbn [step] in D4. destruct (h_phase (g_threads s4 t')); try discriminate. unfold def_static, plain, bind in D4.
           match type of D4 with context [SUser ?k] => destruct (inb stat_dec (SUser k) (g_gone s4)); [discriminate|]; destruct (inb stat_dec (SUser k) (g_live s4)) eqn:E5; injection D4 as <- end.
           ++ now apply inb_true in E5.
           ++ now left.
        -- intros u Iu. destruct (C u Iu) as [Pu (t' & Du)]. split; auto. intros o O. destruct (did_static _ _ _ _ R Du o O) as [X|X]; auto.
           rewrite (safe_gone _ _ t S (or_introl P)) in X. contradiction.
      * apply srests_app; auto.
    + rewrite L'. apply srests_app; auto. rewrite L in U. destruct o; cbn in U; tauto.
Qed.
Lemma careful_defined : forall b a s, safe a s -> careful body (a ++ b) -> run body b s <> Undefined.
Proof.
  induction b as [|l b IH]; intros a s S C; cbn; [discriminate|]. destruct (step body l s) as [s1| |] eqn:E; [|exfalso; exact (safe_defined _ _ _ S E)|discriminate].
  apply (IH (a ++ [l])).
  - apply (safe_step _ _ _ _ S); auto. exact (C a l b eq_refl).
  - rewrite <- app_assoc. exact C.
Qed.
Lemma careful_safe : forall ls, careful body ls -> run body ls state0 <> Undefined.
Proof. intros ls C. exact (careful_defined ls [] state0 safe0 C). Qed.
End Program.

Section Switches.
Variable body : nat -> list use.

(** As long as no static object has been destroyed: a thread with a switch has what takes it back, and while a thread has that, there is the configurator. *)
Definition held (s : state) : Prop :=
  (forall i, In i (g_states s) <-> In TLeaveState (h_live (g_threads s i))) /\
  (forall i, In TLeaveState (h_live (g_threads s i)) -> In SConfigurator (g_live s)).
Lemma held_static : forall o init s s', (forall a b, held a -> init a = Some b -> held b) -> held s -> def_static o init s = Some s' -> held s'.
Proof.
  intros o init s s' I H D. unfold def_static, Exit_model.bind in D. destruct (inb stat_dec o (g_gone s)); [discriminate|].
  destruct (inb stat_dec o (g_live s)); [injection D as <-; auto|]. destruct (init s) as [s1|] eqn:E; [|discriminate]. injection D as <-.
  destruct (I _ _ H E) as (A & B). split; cbn; auto. intros i X. right. exact (B i X).
Qed.
Lemma held_plain : forall a b, held a -> plain a = Some b -> held b.
Proof. intros a b H [= <-]. exact H. Qed.
Lemma held_push : forall t o s, held s -> o <> TLeaveState -> held (push_tls t o s).
Proof.
  intros t o s (A & B) N. split; intros i; rewrite push_live.
  - change (g_states (push_tls t o s)) with (g_states s). rewrite A. destruct (i =? t); [|reflexivity]. split; [now right|]. intros [X|X]; [contradiction|exact X].
  - change (g_live (push_tls t o s)) with (g_live s). destruct (i =? t); [|eauto]. intros [X|X]; [contradiction|eauto].
Qed.
Lemma held_tls : forall t o init s s', (forall a b, held a -> init a = Some b -> held b) -> o <> TLeaveState -> held s -> def_tls t o init s = Some s' -> held s'.
Proof.
  intros t o init s s' I N H D. unfold def_tls, Exit_model.bind in D. destruct (inb tls_dec o (h_gone (g_threads s t))); [discriminate|].
  destruct (inb tls_dec o (h_live (g_threads s t))); [injection D as <-; auto|]. destruct (init s) as [s1|] eqn:E; [|discriminate]. injection D as <-.
  apply held_push; [exact (I _ _ H E)|exact N].
Qed.
Lemma held_buffer : forall t s s', held s -> get_buffer t s = Some s' -> held s'.
Proof.
  intros t s s' H D. unfold get_buffer in D. destruct (def_static SCollector plain s) as [s1|] eqn:E1; [|discriminate]. cbn [Exit_model.bind] in D.
  destruct (def_tls t TLeaveBuffer plain s1) as [s2|] eqn:E2; [|discriminate]. cbn [Exit_model.bind] in D. injection D as <-.
  apply (held_static _ _ _ _ held_plain H) in E1. apply (held_tls t TLeaveBuffer plain _ _ held_plain (fun Z => ltac:(discriminate Z)) E1) in E2. exact E2.
Qed.
Lemma static_there : forall o s s', def_static o plain s = Some s' -> In o (g_live s').
Proof.
  intros o s s' D. unfold def_static, Exit_model.bind, plain in D. destruct (inb stat_dec o (g_gone s)); [discriminate|].
  destruct (inb stat_dec o (g_live s)) eqn:E; injection D as <-; [now apply inb_true in E|]. now left.
Qed.
Lemma held_state : forall t s s', held s -> get_state t s = Some s' -> held s'.
Proof.
  intros t s s' H D. unfold get_state in D. destruct (def_static SConfigurator plain s) as [s1|] eqn:E1; [|discriminate]. cbn [Exit_model.bind] in D.
  assert (C := static_there _ _ _ E1). apply (held_static _ _ _ _ held_plain H) in E1.
  unfold def_tls, plain in D. destruct (inb tls_dec TLeaveState (h_gone (g_threads s1 t))); [discriminate|].
  destruct (inb tls_dec TLeaveState (h_live (g_threads s1 t))) eqn:E2; cbn [Exit_model.bind] in D; injection D as <-; destruct E1 as (A & B).
  - apply inb_true in E2. split; auto. intros i. cbn [g_states g_threads with_tables]. rewrite in_add, <- A. apply A in E2. split; auto. intros [->|X]; auto.
  - split; intros i; cbn [g_states g_threads with_tables]; rewrite push_live.
    + rewrite in_add. change (g_states (push_tls t TLeaveState s1)) with (g_states s1). rewrite A. destruct (i =? t) eqn:E.
      * apply Nat.eqb_eq in E. subst i. split; intros; auto. now left.
      * apply Nat.eqb_neq in E. split; auto. intros [X|X]; auto. contradiction.
    + intros _. exact C.
Qed.
Lemma held_perform : forall t u s s', held s -> perform t u s = Some s' -> held s'.
Proof.
  intros t u s s' H D. destruct u; cbn [perform] in D; try exact (held_static _ _ _ _ held_plain H D).
  - unfold trace in D. destruct (def_static (SPtr f) (def_static SConfigurator plain) s) as [s1|] eqn:E1; [|discriminate]. cbn [Exit_model.bind] in D.
    assert (SC : forall o a b, held a -> def_static o plain a = Some b -> held b) by (intros o a b; apply held_static; exact held_plain).
    apply (held_static _ _ _ _ (SC SConfigurator) H) in E1.
    destruct (def_tls t (TPtr f) (def_static SCollector plain) s1) as [s2|] eqn:E2; [|discriminate]. cbn [Exit_model.bind] in D.
    apply (held_tls t (TPtr f) _ _ _ (SC SCollector) (fun Z => ltac:(discriminate Z)) E1) in E2.
    destruct (def_tls t (TBuffer f) (get_buffer t) s2) as [s3|] eqn:E3; [|discriminate]. cbn [Exit_model.bind] in D.
    apply (held_tls t (TBuffer f) _ _ _ (held_buffer t) (fun Z => ltac:(discriminate Z)) E2) in E3.
    destruct (def_static (SState f) plain s3) as [s4|] eqn:E4; [|discriminate]. cbn [Exit_model.bind] in D. apply (SC _ _ _ E3) in E4.
    destruct (def_tls t (TState f) (get_state t) s4) as [s5|] eqn:E5; [|discriminate]. cbn [Exit_model.bind] in D. injection D as <-.
    apply (held_tls t (TState f) _ _ _ (held_state t) (fun Z => ltac:(discriminate Z)) E4) in E5. exact E5.
  - unfold set_name in D. destruct (def_static SNames plain s) as [s1|] eqn:E1; [|discriminate]. cbn [Exit_model.bind] in D.
    destruct (def_tls t TLeaveName plain s1) as [s2|] eqn:E2; [|discriminate]. cbn [Exit_model.bind] in D. injection D as <-.
    apply (held_static _ _ _ _ held_plain H) in E1. apply (held_tls t TLeaveName plain _ _ held_plain (fun Z => ltac:(discriminate Z)) E1) in E2. exact E2.
  - exact (held_state _ _ _ H D).
Qed.
Lemma held_performs : forall us t s s', held s -> performs t us s = Some s' -> held s'.
Proof.
  induction us as [|u us IH]; intros t s s' H D; cbn in D; [injection D as <-; auto|].
  destruct (perform t u s) as [s1|] eqn:E; [|discriminate]. exact (IH _ _ _ (held_perform _ _ _ _ H E) D).
Qed.
Lemma held_phase : forall t p s, held s -> held (set_thread t (with_phase p (g_threads s t)) s).
Proof.
  intros t p s (A & B). assert (TL : forall i, h_live (g_threads (set_thread t (with_phase p (g_threads s t)) s) i) = h_live (g_threads s i))
    by (intros i; cbn; destruct (i =? t) eqn:E; auto; apply Nat.eqb_eq in E; subst; auto).
  split; intros i; rewrite TL; [exact (A i)|exact (B i)].
Qed.
Lemma held_popped : forall t o r s, h_live (g_threads s t) = o :: r -> o <> TLeaveState -> held s -> held (popped t o r s).
Proof.
  intros t o r s L N (A & B). split; intros i; rewrite popped_live.
  - change (g_states (popped t o r s)) with (g_states s). rewrite A. destruct (i =? t) eqn:E; [|reflexivity].
    apply Nat.eqb_eq in E. subst i. rewrite L. split; [intros [X|X]; [contradiction|exact X]|now right].
  - change (g_live (popped t o r s)) with (g_live s). destruct (i =? t) eqn:E; [|exact (B i)]. intros X. apply (B t). rewrite L. now right.
Qed.
Lemma held_step : forall l s s', okay s -> l <> Exit -> held s -> step body l s = Next s' -> held s'.
Proof.
  intros l s s' K NE H D. destruct l; cbn [step] in D; try congruence.
  - destruct (h_phase (g_threads s t)); try discriminate. injection D as <-. now apply held_phase.
  - destruct (h_phase (g_threads s t)); try discriminate. destruct (perform t u s) as [s1|] eqn:E; [|discriminate]. injection D as <-. exact (held_perform _ _ _ _ H E).
  - destruct (h_phase (g_threads s t)); try discriminate. destruct (def_tls t (TUser k) plain s) as [s1|] eqn:E; [|discriminate]. injection D as <-.
    exact (held_tls t (TUser k) _ _ _ held_plain (fun Z => ltac:(discriminate Z)) H E).
  - destruct (h_phase (g_threads s t)); try discriminate. destruct (def_static (SUser k) plain s) as [s1|] eqn:E; [|discriminate]. injection D as <-.
    exact (held_static _ _ _ _ held_plain H E).
  - destruct (h_phase (g_threads s t)); try discriminate. injection D as <-. now apply held_phase.
  - destruct (h_phase (g_threads s t)) eqn:P; try discriminate. destruct (h_live (g_threads s t)) as [|o r] eqn:L; [discriminate|].
    fold (popped t o r s) in D. destruct (destroy_tls body t o (popped t o r s)) as [s1|] eqn:E; [|discriminate]. injection D as <-.
    destruct (tls_dec o TLeaveState) as [->|N].
    + cbn [destroy_tls] in E. assert (C : In SConfigurator (g_live s)) by (apply (proj2 H t); rewrite L; now left).
      assert (HC : holds_configurator (popped t TLeaveState r s) = true) by (apply existsb_exists; exists SConfigurator; auto).
      rewrite HC in E. injection E as <-. destruct H as (A & B). split.
      * intros i. cbn [g_states g_threads with_tables]. rewrite popped_live, in_drop. change (g_states (popped t TLeaveState r s)) with (g_states s). rewrite A.
        destruct (i =? t) eqn:E.
        -- apply Nat.eqb_eq in E. subst i. split; [intros (_ & X); contradiction|]. intros X.
           assert (ND := ok_nodup _ K t). rewrite L in ND. apply nodup_left, nodup_tail in ND. contradiction.
        -- apply Nat.eqb_neq in E. tauto.
      * intros i _. exact C.
    + assert (HP := held_popped _ _ _ _ L N H). destruct o; cbn [destroy_tls] in E; try (injection E as <-; exact HP); try congruence.
      * destruct (inb stat_dec SCollector (g_live (popped t TLeaveBuffer r s)) || holds_collector (g_threads (popped t TLeaveBuffer r s) t));
          injection E as <-; exact HP.
      * destruct (inb stat_dec SNames (g_gone (popped t TLeaveName r s))); [discriminate|]. injection E as <-. exact HP.
      * exact (held_performs _ _ _ _ HP E).
  - destruct (h_phase (g_threads s t)); try discriminate. destruct (h_live (g_threads s t)); [|discriminate]. injection D as <-. now apply held_phase.
Qed.
Lemma reached_held : forall ls s, reached body ls s -> ~ In Exit ls -> held s.
Proof.
  intros ls. induction ls as [|l ls IH] using rev_ind; intros s R N.
  - injection R as <-. split; cbn; [reflexivity|]. intros i [].
  - apply reached_snoc in R as (s1 & R & D). apply (held_step l s1); auto.
    + exact (reached_ok _ _ _ R).
    + intros ->. apply N. apply in_or_app. right. now left.
    + apply IH; auto. intros X. apply N. apply in_or_app. now left.
Qed.
Lemma switches : forall ls s t, reached body ls s -> ~ In Exit ls ->
  (h_phase (g_threads s t) = Running -> (In (Do t USetState) ls \/ exists f, In (Do t (UTrace f)) ls) -> In t (g_states s)) /\
  (t <> 0 -> In (End t) ls -> ~ In t (g_states s)).
Proof.
  intros ls s t R N. destruct (reached_held _ _ R N) as (A & _). assert (K := reached_ok _ _ _ R). split.
  - intros P U. apply A. assert (M : made t TLeaveState s).
    { destruct U as [U|(f & U)]; destruct (did _ _ _ _ _ R U) as (M & _); apply M; cbn; tauto. }
    destruct M as [M|M]; auto. rewrite (ok_running _ K t P) in M. destruct M.
  - intros Z E X. apply A in X. rewrite (ok_over _ K t Z (ended _ _ _ _ R E)) in X. destruct X.
Qed.
End Switches.
