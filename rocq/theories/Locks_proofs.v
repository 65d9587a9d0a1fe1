(** No deadlock. *)
From Coq Require Import List Arith Bool Lia.
Import ListNotations.
From Verif Require Import Locks_model Locks_spec.

Section Order.
Variables (lev : lock -> nat) (jlev : nat -> nat).
(** [h]: the mutexes held, the last first; all levels go up, from that of the thread itself. *)
Definition top (t : nat) (h : list lock) : nat := match h with [] => jlev t | l :: _ => lev l end.
Fixpoint good (t : nat) (h : list lock) (ls : list op) : Prop :=
  match ls with
  | [] => h = []
  | Acq l :: r => top t h < lev l /\ good t (l :: h) r
  | Rel l :: r => exists h', h = l :: h' /\ good t h' r
  | Wait u :: r => top t h < jlev u /\ good t h r
  end.
Fixpoint up (t : nat) (h : list lock) : Prop := match h with [] => True | l :: h' => top t h' < lev l /\ up t h' end.
Lemma up_top t h l : up t h -> In l h -> lev l <= top t h.
Proof.
  revert l. induction h as [|k h IH]; [contradiction|]. intros l [H1 H2] [->|Hl]; cbn [top]; [lia|]. specialize (IH l H2 Hl). lia.
Qed.
Lemma up_own t h : up t h -> jlev t <= top t h.
Proof. induction h as [|k h IH]; cbn [top up]; [lia|]. intros [H1 H2]. specialize (IH H2). lia. Qed.

Record inv (s : state) : Prop := {
  i_held : forall t, exists h, up t h /\ good t h (todo s t) /\ forall l, owner s l = Some t <-> In l h;
  i_end : exists n, forall t, n <= t -> todo s t = []
}.
Lemma next_same f t r : next f t r t = r. Proof. unfold next. now destruct (Nat.eq_dec t t). Qed.
Lemma next_other f t r u : u <> t -> next f t r u = f u. Proof. intros H. unfold next. now destruct (Nat.eq_dec u t). Qed.
Lemma give_same f l v : give f l v l = v. Proof. unfold give. now destruct (lock_dec l l). Qed.
Lemma give_other f l v k : k <> l -> give f l v k = f k. Proof. intros H. unfold give. now destruct (lock_dec k l). Qed.

Lemma up_nodup t h : up t h -> NoDup h.
Proof.
  induction h as [|l h IH]; [constructor|]. intros [H1 H2]. constructor; [|auto]. intros Hl. apply (up_top t h l H2) in Hl. lia.
Qed.
Lemma inv_step t s s' : inv s -> step t s = Some s' -> inv s'.
Proof.
  intros [IH (n & IE)] E. unfold step in E. destruct (todo s t) as [|o r] eqn:Et; [discriminate|].
  assert (IE' : exists n, forall u, n <= u -> next (todo s) t r u = []).
  { exists n. intros u Hu. destruct (Nat.eq_dec u t) as [->|Hn]; [|rewrite next_other; auto]. rewrite IE in Et by auto. discriminate. }
  destruct o as [l|l|u].
  - destruct (owner s l) eqn:El; [discriminate|]. injection E as <-. constructor; cbn [todo owner]; [|exact IE']. intros v. destruct (IH v) as (h & Hu & Hg & Ho).
    destruct (Nat.eq_dec v t) as [->|Hn].
    + rewrite next_same. rewrite Et in Hg. destruct Hg as [G1 G2]. exists (l :: h). split; [cbn [up]; auto|]. split; [exact G2|]. intros k. destruct (lock_dec k l) as [->|Hk].
      * rewrite give_same. split; [now left|reflexivity].
      * rewrite give_other by auto. rewrite Ho. split; [now right|]. intros [->|H]; [congruence|exact H].
    + rewrite next_other by auto. exists h. split; [exact Hu|]. split; [exact Hg|]. intros k. destruct (lock_dec k l) as [->|Hk].
      * rewrite give_same. split; [intros H; congruence|]. intros H. apply Ho in H. congruence.
      * rewrite give_other by auto. apply Ho.
  - destruct (owner s l) as [w|] eqn:El; [|discriminate]. destruct (Nat.eq_dec w t) as [->|]; [|discriminate]. injection E as <-. constructor; cbn [todo owner]; [|exact IE'].
    intros v. destruct (IH v) as (h & Hu & Hg & Ho). destruct (Nat.eq_dec v t) as [->|Hn].
    + rewrite next_same. rewrite Et in Hg. destruct Hg as (h' & -> & Hg). exists h'. split; [apply Hu|]. split; [exact Hg|]. intros k. pose proof (up_nodup _ _ Hu) as Hd. inversion Hd as [|? ? D1 D2]; subst. destruct (lock_dec k l) as [->|Hk].
      * rewrite give_same. split; [discriminate|contradiction].
      * rewrite give_other by auto. rewrite Ho. split; [intros [->|H]; congruence|now right].
    + rewrite next_other by auto. exists h. split; [exact Hu|]. split; [exact Hg|]. intros k. destruct (lock_dec k l) as [->|Hk].
      * rewrite give_same. split; [discriminate|]. intros H. apply Ho in H. congruence.
      * rewrite give_other by auto. apply Ho.
  - destruct (todo s u); [|discriminate]. injection E as <-. constructor; cbn [todo owner]; [|exact IE']. intros v. destruct (IH v) as (h & Hu & Hg & Ho).
    destruct (Nat.eq_dec v t) as [->|Hn]; [rewrite next_same|rewrite next_other by auto]; exists h; (split; [exact Hu|split; [|exact Ho]]); [|exact Hg]. rewrite Et in Hg. apply Hg.
Qed.

(** The level of what a thread waits for. *)
Definition waits (s : state) (t : nat) : nat := match todo s t with Acq l :: _ => lev l | Wait u :: _ => jlev u | _ => 0 end.
Lemma blocked s t : inv s -> todo s t <> [] -> step t s = None -> exists u, todo s u <> [] /\ (step u s = None -> waits s t < waits s u).
Proof.
  intros [IH _] Hne E. unfold step in E. destruct (todo s t) as [|o r] eqn:Et; [congruence|]. destruct (IH t) as (h & Hu & Hg & Ho). rewrite Et in Hg.
  assert (G : forall u h' k, up u h' -> good u h' (todo s u) -> (forall l, owner s l = Some u <-> In l h') -> todo s u <> [] -> k <= top u h' -> step u s = None -> k < waits s u).
  { intros u h' k Hu' Hg' Ho' Hn Hk Es. unfold waits. unfold step in Es. destruct (todo s u) as [|[l|l|w] r'] eqn:Eu; [congruence| | |].
    - destruct Hg' as [G1 _]. lia.
    - destruct Hg' as (h2 & -> & _). rewrite (proj2 (Ho' l)) in Es by now left. destruct (Nat.eq_dec u u); congruence.
    - destruct Hg' as [G1 _]. lia. }
  destruct o as [l|l|u].
  - destruct (owner s l) as [u|] eqn:El; [|discriminate]. destruct (IH u) as (h' & Hu' & Hg' & Ho'). assert (Hl : In l h') by now apply Ho'.
    assert (Hn : todo s u <> []). { intros En. rewrite En in Hg'. cbn in Hg'. subst h'. contradiction. }
    exists u. split; [exact Hn|]. unfold waits at 1. rewrite Et. apply (G u h'); auto. now apply up_top.
  - destruct Hg as (h2 & -> & _). rewrite (proj2 (Ho l)) in E by now left. destruct (Nat.eq_dec t t); congruence.
  - assert (Hn : todo s u <> []) by (intros En; rewrite En in E; discriminate). destruct (IH u) as (h' & Hu' & Hg' & Ho'). exists u. split; [exact Hn|].
    unfold waits at 1. rewrite Et. apply (G u h'); auto. now apply up_own.
Qed.
Lemma not_stuck s : inv s -> ~ stuck s.
Proof.
  intros I [(t & Ht) Hs]. destruct (i_end s I) as (n & Hn).
  (* the waits are bounded *)
  assert (B : exists b, forall u, waits s u <= b).
  { clear - Hn. assert (C : forall m, exists b, forall u, u < m -> waits s u <= b).
    { induction m as [|m (b & IH)]; [exists 0; intros; lia|]. exists (b + waits s m). intros u Hu. destruct (Nat.eq_dec u m) as [->|]; [lia|]. specialize (IH u). lia. }
    destruct (C n) as (b & Hb). exists b. intros u. destruct (lt_dec u n); [auto|]. unfold waits. rewrite Hn by lia. lia. }
  destruct B as (b & Hb). assert (D : forall k t, todo s t <> [] -> b - waits s t <= k -> False).
  { induction k as [|k IH]; intros u Hu Hk; destruct (blocked s u I Hu (Hs u)) as (v & Hv & Hw); specialize (Hw (Hs v)); pose proof (Hb v); pose proof (Hb u); [lia|]. apply (IH v Hv). lia. }
  exact (D _ t Ht (Nat.le_refl _)).
Qed.
Theorem no_deadlock prog s : (exists n, forall t, n <= t -> prog t = []) -> (forall t, good t [] (prog t)) -> reachable prog s -> ~ stuck s.
Proof.
  intros Hn Hg (ts & E). apply not_stuck. assert (I : inv (begin prog)).
  { constructor; cbn [todo owner begin]; [|exact Hn]. intros t. exists []. split; [exact I|]. split; [apply Hg|]. intros l. split; [discriminate|contradiction]. }
  revert I E. generalize (begin prog). clear. induction ts as [|t ts IH]; intros s0 I E; cbn [run] in E; [congruence|]. destruct (step t s0) as [s1|] eqn:E1; [|discriminate]. eauto using inv_step.
Qed.

(** ** From the functions to the programs *)
Fixpoint ok (b : nat) (c : code) : Prop :=
  match c with
  | Nop => True
  | Seq x y | Either x y => ok b x /\ ok b y
  | Many x => ok b x
  | Any f => forall i, ok b (f i)
  | Locked l x => b < lev l /\ ok (lev l) x
  | Join u => b < jlev u
  end.
Lemma ok_mono c : forall b b', b' <= b -> ok b c -> ok b' c.
Proof.
  induction c as [|x IHx y IHy|x IHx y IHy|x IHx|f IHf|l x IHx|u]; intros b b' Hb; cbn [ok]; auto.
  - intros [H1 H2]. eauto.
  - intros [H1 H2]. eauto.
  - eauto.
  - eauto.
  - intros [H1 H2]. split; [lia|exact H2].
  - lia.
Qed.
Lemma trace_good t c x : trace c x -> forall h r, ok (top t h) c -> good t h r -> good t h (x ++ r).
Proof.
  intros H. induction H as [|a b x y Ha IHa Hb IHb|a b x Ha IHa|a b x Hb IHb|a|a x y Ha IHa Hb IHb|f i x Hf IHf|l a x Ha IHa|u]; intros h r Ho Hg; cbn [ok] in Ho; cbn [app].
  - exact Hg.
  - rewrite <- app_assoc. apply IHa; [apply Ho|]. apply IHb; [apply Ho|exact Hg].
  - apply IHa; [apply Ho|exact Hg].
  - apply IHb; [apply Ho|exact Hg].
  - exact Hg.
  - rewrite <- app_assoc. apply IHa; [exact Ho|]. apply IHb; [exact Ho|exact Hg].
  - apply IHf; auto.
  - destruct Ho as [H1 H2]. cbn [good]. split; [exact H1|]. rewrite <- app_assoc. apply IHa; [exact H2|]. cbn [app good]. eauto.
  - cbn [good]. auto.
Qed.
Lemma trace_good0 t c x : trace c x -> ok (jlev t) c -> good t [] x.
Proof. intros H Ho. rewrite <- (app_nil_r x). apply (trace_good t c x H [] []); [exact Ho|reflexivity]. Qed.
End Order.

(** ** The order of the library *)
Definition level (l : lock) : nat :=
  match l with
  | LGil => 1 | LSession _ => 3 | LIncoming _ => 5 | LRecorder _ => 5 | LGeneral _ => 6 | LManager _ => 8
  | LRequest _ => 11 | LEndpoint _ => 12 | LSources _ => 14 | LMapping _ => 14 | LData _ => 15 | LParser _ => 16
  | LConfig | LOrphans | LTracker _ | LBroadcast _ | LWrite _ | LUser _ => 20
  end.
Definition role_level (r : role) : nat :=
  match r with RUser => 0 | RServer => 2 | RSession => 4 | RRecorder => 4 | RPoll => 7 | RLoopback => 9 | RTransport => 10 | RSender => 13 | RParser => 15 end.

Section Lib.
Variables (roles : nat -> role) (cb : callbacks).
Hypothesis harmless_cb : all_harmless cb.
Notation ok := (ok level (fun t => role_level (roles t))).

Lemma harmless_ok c b : harmless c -> b <= 19 -> ok b c.
Proof.
  revert b. induction c as [|x IHx y IHy|x IHx y IHy|x IHx|f IHf|l x IHx|u]; intros b; cbn [harmless Locks_proofs.ok]; auto.
  - intros [H1 H2] Hb. auto.
  - intros [H1 H2] Hb. auto.
  - intros [H1 ->] Hb. split; [destruct l; try discriminate; cbn; lia|exact I].
  - contradiction.
Qed.
Lemma touch_ok l b : b < level l -> ok b (touch l).
Proof. intros H. split; [exact H|exact I]. Qed.
Lemma maybe_ok c b : ok b c -> ok b (maybe c).
Proof. intros H. split; [exact I|exact H]. Qed.
Lemma join_ok r b : (forall x, r x = true -> b < role_level x) -> ok b (join roles r).
Proof. intros H i. destruct (r (roles i)) eqn:E; [apply H, E|exact I]. Qed.

Lemma log_ok b : b <= 19 -> ok b (cb_log cb). Proof. apply harmless_ok, harmless_cb. Qed.
Lemma name_ok b : b <= 19 -> ok b (cb_name cb). Proof. apply harmless_ok, harmless_cb. Qed.
Lemma factory_ok b : b <= 19 -> ok b (cb_factory cb). Proof. apply harmless_ok, harmless_cb. Qed.
Lemma csource_ok b : b <= 19 -> ok b (cb_source cb). Proof. apply harmless_ok, harmless_cb. Qed.
Lemma chandle_ok b t : b <= 19 -> ok b (cb_handle cb t). Proof. apply harmless_ok, harmless_cb. Qed.
Lemma cunsol_ok b t : b <= 19 -> ok b (cb_unsolicited cb t). Proof. apply harmless_ok, harmless_cb. Qed.

Ltac t := apply touch_ok; cbn; lia.
Lemma drop_endpoint_ok b : b < 13 -> ok b (drop_endpoint roles).
Proof. intros H. apply maybe_ok, join_ok. intros [] E; try discriminate; cbn; lia. Qed.
Lemma drop_transport_ok b : b < 9 -> ok b (drop_transport roles).
Proof. intros H. split; [apply maybe_ok, join_ok; intros [] E; try discriminate; cbn; lia|apply drop_endpoint_ok; lia]. Qed.
Lemma add_endpoint_ok b t : b < 12 -> ok b (add_endpoint roles cb t).
Proof. intros H. split; [exact H|]. cbn [level]. split; [apply name_ok; lia|apply drop_endpoint_ok; lia]. Qed.
Lemma request_ok b t : b < 11 -> ok b (request t).
Proof. intros H. split; [t|apply maybe_ok; t]. Qed.
Lemma any_request_ok b t : b < 11 -> ok b (any_request t).
Proof. intros H. split; [now apply request_ok|t]. Qed.
Lemma handle_ok b t : b < 12 -> ok b (handle cb t).
Proof. intros H. split; [apply chandle_ok; lia|]. split; [t|]. split; [intros k; t|t]. Qed.
Lemma unsolicited_ok b t : b < 14 -> ok b (unsolicited cb t).
Proof. intros H. split; [apply cunsol_ok; lia|]. split; [intros p; t|intros s; t]. Qed.
Lemma transport_pass_ok t : ok 10 (transport_pass cb t).
Proof.
  split; [apply log_ok; lia|]. split.
  { apply maybe_ok. split; [cbn; lia|]. apply maybe_ok. split; [cbn; lia|]. split; [apply unsolicited_ok; cbn; lia|apply maybe_ok; t]. }
  split; [split; [apply handle_ok; lia|apply maybe_ok; t]|]. split; [split; [t|split; [t|t]]|]. split; [t|t].
Qed.
Lemma client_pass_ok t u : ok 10 (client_pass cb t u).
Proof. split; [split; [cbn; lia|split; [t|apply handle_ok; cbn; lia]]|]. split; [split; t|t]. Qed.
Lemma server_pass_ok t : ok 9 (server_pass roles cb t).
Proof.
  split; [t|]. split; [|t]. split; [t|]. split; [t|]. split.
  - intros c. split; [t|]. split; [apply unsolicited_ok; lia|]. apply maybe_ok. split; [t|apply handle_ok; lia].
  - apply maybe_ok. split; [apply join_ok; intros [] E; try discriminate; cbn; lia|apply drop_endpoint_ok; lia].
Qed.
Lemma manage_ok b m : b < 8 -> ok b (manage roles cb m).
Proof.
  intros H. split; [cbn; lia|]. cbn [level]. split; [split; [apply log_ok; lia|apply drop_transport_ok; lia]|]. split; [apply log_ok; lia|]. split; [|apply drop_transport_ok; lia].
  intros t. split; [apply any_request_ok; lia|]. split; [split; [apply factory_ok; lia|apply add_endpoint_ok; lia]|apply log_ok; lia].
Qed.
Lemma stop_polling_ok b : b < 7 -> ok b (stop_polling roles).
Proof. intros H. apply maybe_ok, join_ok. intros [] E; try discriminate; cbn; lia. Qed.
Lemma source_ok b : b < 6 -> ok b (source cb).
Proof.
  intros H. split; [apply csource_ok; lia|]. split; [|split].
  - intros p s. split; [t|]. split; [|split; t]. apply maybe_ok. split; [|t]. apply maybe_ok. split; [intros m; t|intros r; apply any_request_ok; lia].
  - intros g. split; [|t]. split; [cbn; lia|]. cbn [level]. split; [intros m; t|intros r; apply any_request_ok; lia].
  - intros p. split; [split; [cbn; lia|apply log_ok; cbn; lia]|]. split; [|t]. split; [|t]. apply maybe_ok. split; [intros m; t|intros r; apply any_request_ok; lia].
Qed.
Lemma make_source_ok b : b < 14 -> ok b make_source.
Proof. intros H p. t. Qed.
Lemma drop_source_ok b : b < 7 -> ok b (drop_source roles).
Proof.
  intros H. split; [apply maybe_ok; split; [intros p; t|apply join_ok; intros [] E; try discriminate; cbn; lia]|].
  apply maybe_ok. split; [apply stop_polling_ok; lia|apply drop_transport_ok; lia].
Qed.
Lemma recorder_call_ok b r : b < 4 -> ok b (recorder_call roles cb r).
Proof.
  intros H. split; [split; [cbn; lia|apply source_ok; cbn; lia]|]. split; [apply join_ok; intros [] E; try discriminate; cbn; lia|]. split; [apply make_source_ok; lia|apply drop_source_ok; lia].
Qed.
Lemma api_ok b : b < 2 -> ok b (api roles cb).
Proof.
  intros H. split.
  { intros u. split; [apply any_request_ok; lia|]. split; [t|]. split; [t|]. split; [apply add_endpoint_ok; lia|t]. }
  split. { intros m. split; [apply manage_ok; lia|]. split; [t|]. split; [t|apply stop_polling_ok; lia]. }
  split; [intros r; apply recorder_call_ok; lia|]. split; [apply source_ok; lia|]. split; [apply make_source_ok; lia|]. split; [apply drop_transport_ok; lia|]. split; [apply drop_source_ok; lia|].
  split. { split; apply join_ok; intros [] E; try discriminate; cbn; lia. }
  split; [split; [t|intros k; split; t]|]. split; [apply maybe_ok; t|]. apply maybe_ok. split; [intros k; split; t|]. split; [t|intros k; t].
Qed.
Lemma thread_ok t : ok (role_level (roles t)) (thread_code roles cb t).
Proof.
  unfold thread_code. destruct (roles t); cbn [role_level].
  - intros b. split; [apply log_ok; lia|]. split; [split; [cbn; lia|apply make_source_ok; cbn; lia]|]. split; [split; [t|split; [apply log_ok; lia|intros s; t]]|].
    split; [split; [cbn; lia|split; [apply join_ok; intros [] E; try discriminate; cbn; lia|apply drop_source_ok; cbn; lia]]|t].
  - split; [|apply source_ok; lia]. intros s. split; [t|]. apply maybe_ok. split; [t|]. split; [apply log_ok; lia|]. split; [apply source_ok; lia|apply log_ok; lia].
  - intros r. split; [cbn; lia|apply source_ok; cbn; lia].
  - intros m. apply manage_ok. lia.
  - intros u. apply server_pass_ok.
  - intros u. split; [apply transport_pass_ok|intros v; apply client_pass_ok].
  - split; [t|]. split; [intros k; t|apply maybe_ok; intros u; t].
  - split; [|apply log_ok; lia]. intros p. apply maybe_ok. split; [cbn; lia|apply log_ok; cbn; lia].
  - split; [apply api_ok; lia|]. split; [split; [cbn; lia|apply api_ok; cbn; lia]|intros n; t].
Qed.

(** C72: nothing gets stuck. *)
Theorem library_free prog s : program roles cb prog -> reachable prog s -> ~ stuck s.
Proof.
  intros [Hn Hp]. apply (no_deadlock level (fun t => role_level (roles t))); [exact Hn|]. intros u. destruct (prog u) eqn:E; [reflexivity|]. rewrite <- E.
  eapply trace_good0; [|apply thread_ok]. apply Hp. congruence.
Qed.
End Lib.
