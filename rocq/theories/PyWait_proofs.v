(** Proofs about waiting for an answer (C99). *)
From Coq Require Import List ZArith Bool Lia.
Import ListNotations.
From Verif Require Import PyWait_model PyWait_spec.
Open Scope Z_scope.

(** What is known of a state [s] reached by a history that has set [a] so far. *)
Record inv (t0 : Z) (h : list label) (s : state) : Prop := {
  i_set : set_at h t0 = match value s with Waiting => None | v => Some (arrived s, v) end;
  i_time : arrived s <= now s;
  i_log : forall e, List.In e (log s) -> right (match value s with Waiting => None | v => Some (arrived s, v) end) e /\ en_returned e <= now s;
  i_taken : taken s = existsb gives (log s);
  i_given : taken s = true -> value s <> Waiting;
  i_got : forall t c l, th s t = Got c l -> value s <> Waiting }.

Fixpoint pass (h : list label) (t : Z) : Z := match h with [] => t | Pass d :: r => pass r (t + d) | _ :: r => pass r t end.
Lemma set_at_app h k t : set_at (h ++ k) t = match set_at h t with Some x => Some x | None => set_at k (pass h t) end.
Proof. revert t. induction h as [|a h IH]; intros t; [reflexivity|]. destruct a; cbn [app set_at pass]; auto. Qed.
Lemma pass_app h k t : pass (h ++ k) t = pass k (pass h t).
Proof. revert t. induction h as [|a h IH]; intros t; [reflexivity|]. destruct a; cbn [app pass]; auto. Qed.
Lemma set_other f t p u : u <> t -> set f t p u = f u.
Proof. unfold set. intros H. apply Nat.eqb_neq in H. now rewrite H. Qed.
Lemma set_same f t p : set f t p t = p.
Proof. unfold set. now rewrite Nat.eqb_refl. Qed.
Lemma set_got f t p u c l : set f t p u = Got c l -> p = Got c l \/ f u = Got c l.
Proof. unfold set. destruct (Nat.eqb u t); auto. Qed.

Lemma inv0 t0 : inv t0 [] (start t0).
Proof. split; cbn; try reflexivity; try lia; try contradiction; try discriminate. Qed.
Lemma inv_step t0 h s a s' : inv t0 h s -> pass h t0 = now s -> step a s = Next s' -> inv t0 (h ++ [a]) s' /\ pass (h ++ [a]) t0 = now s'.
Proof.
  intros [I1 I2 I3 I4 I5 I6] T H. rewrite pass_app, T.
  assert (A : forall b, match b with Pass _ | Reply _ | Break => False | _ => True end -> set_at (h ++ [b]) t0 = set_at h t0 /\ pass [b] (now s) = now s).
  { intros b B. rewrite set_at_app. destruct b; try destruct B; cbn; split; try reflexivity; destruct (set_at h t0); reflexivity. }
  destruct a as [d|d| |t l|t|t|t]; cbn [step] in H.
  - destruct (0 <? d) eqn:D; [|discriminate H]. apply Z.ltb_lt in D. injection H as <-. split; [|reflexivity]. split; cbn [value arrived now log taken th]; auto.
    + rewrite set_at_app, I1. destruct (value s); reflexivity.
    + lia.
    + intros e E. destruct (I3 e E) as [X Y]. split; [exact X|lia].
  - destruct (value s) eqn:V; try discriminate H. injection H as <-. split; [|reflexivity]. split; cbn [value arrived now log taken th]; auto; try discriminate.
    + rewrite set_at_app, I1, T. reflexivity.
    + lia.
    + intros e E. destruct (I3 e E) as [X Y]. split; [|exact Y]. unfold right in *. destruct (en_result e).
      * destruct X as [X _]. split; [exact X|exact Y].
      * destruct X as (z & X & _). discriminate X.
      * destruct X as (z & X & _). discriminate X.
  - destruct (value s) eqn:V; try discriminate H. injection H as <-. split; [|reflexivity]. split; cbn [value arrived now log taken th]; auto; try discriminate.
    + rewrite set_at_app, I1, T. reflexivity.
    + lia.
    + intros e E. destruct (I3 e E) as [X Y]. split; [|exact Y]. unfold right in *. destruct (en_result e).
      * destruct X as [X _]. split; [exact X|exact Y].
      * destruct X as (z & X & _). discriminate X.
      * destruct X as (z & X & _). discriminate X.
  - destruct (A (Call t l) Logic.I) as [A1 A2]. destruct (th s t); try discriminate H. destruct (taken s) eqn:K; [discriminate H|].
    destruct l as [ns|]; [|discriminate H]. destruct (in_range (now s + ns)); [|discriminate H]. injection H as <-. split; [|exact A2].
    split; cbn [value arrived now log taken th]; auto.
    + rewrite A1. exact I1.
    + intros u c l X. apply set_got in X. destruct X as [X|X]; [discriminate X|exact (I6 _ _ _ X)].
  - destruct (A (TimeOut t) Logic.I) as [A1 A2]. destruct (th s t) as [|c ns|c ns]; try discriminate H. destruct (taken s) eqn:K; [discriminate H|].
    destruct (value s) eqn:V; try discriminate H. destruct (c + ns <=? now s) eqn:L; [|discriminate H]. apply Z.leb_le in L. injection H as <-. split; [|exact A2].
    split; cbn [value arrived now log taken th]; auto.
    + rewrite A1. exact I1.
    + intros e E. apply in_app_iff in E. destruct E as [E|[<-|[]]]; [exact (I3 e E)|]. cbn. split; [split; [exact L|exact Logic.I]|lia].
    + rewrite existsb_app, <- I4. reflexivity.
    + intros u c' l X. apply set_got in X. destruct X as [X|X]; [discriminate X|exact (I6 _ _ _ X)].
  - destruct (A (Ready t) Logic.I) as [A1 A2]. destruct (th s t) as [|c ns|c ns]; try discriminate H. destruct (taken s) eqn:K; [discriminate H|].
    assert (V : value s <> Waiting) by (intros V; rewrite V in H; discriminate H).
    assert (H' : s' = {| now := now s; value := value s; arrived := arrived s; taken := false; th := set (th s) t (Got c ns); log := log s |}) by (destruct (value s); try congruence). subst s'.
    split; [|exact A2]. split; cbn [value arrived now log taken th]; auto. rewrite A1. exact I1.
  - destruct (A (Get t) Logic.I) as [A1 A2]. destruct (th s t) as [|c ns|c ns] eqn:P; try discriminate H. destruct (taken s) eqn:K; [discriminate H|].
    assert (V := I6 _ _ _ P). injection H as <-. split; [|exact A2]. split; cbn [value arrived now log taken th]; auto.
    + rewrite A1. exact I1.
    + intros e E. apply in_app_iff in E. destruct E as [E|[<-|[]]]; [exact (I3 e E)|]. cbn [en_returned]. split; [|lia].
      unfold right. cbn [en_result en_returned]. destruct (value s); [congruence|exists (arrived s); split; [reflexivity|exact I2]|exists (arrived s); split; [reflexivity|exact I2]].
    + rewrite existsb_app. cbn [existsb gives en_result]. unfold gives. cbn [en_result]. destruct (value s); cbn; now rewrite orb_true_r.
Qed.
Lemma inv_run t0 h s : run h (start t0) = Next s -> inv t0 h s.
Proof.
  assert (G : forall h k s0 s, inv t0 k s0 -> pass k t0 = now s0 -> run h s0 = Next s -> inv t0 (k ++ h) s).
  { clear. induction h as [|a h IH]; intros k s0 s I T H; cbn [run] in H; [injection H as <-; rewrite app_nil_r; exact I|].
    destruct (step a s0) as [s1| |] eqn:E; try discriminate H. destruct (inv_step _ _ _ _ _ I T E) as [I1 T1].
    replace (k ++ a :: h) with ((k ++ [a]) ++ h) by now rewrite <- app_assoc. exact (IH _ _ _ I1 T1 H). }
  intros H. exact (G h [] (start t0) s (inv0 t0) eq_refl H).
Qed.

Lemma answers_right t0 h s : run h (start t0) = Next s -> (forall e, List.In e (log s) -> right (set_at h t0) e) /\ (length (filter gives (log s)) <= 1)%nat.
Proof.
  intros H. destruct (inv_run _ _ _ H) as [I1 _ I3 _ _ _]. split.
  - intros e E. rewrite I1. exact (proj1 (I3 e E)).
  - assert (G : forall h s0 s, run h s0 = Next s -> taken s0 = existsb gives (log s0) -> (length (filter gives (log s0)) <= 1)%nat -> (length (filter gives (log s)) <= 1)%nat).
    { clear. induction h as [|a h IH]; intros s0 s H T L; cbn [run] in H; [injection H as <-; exact L|].
      destruct (step a s0) as [s1| |] eqn:E; try discriminate H. apply (IH _ _ H); clear IH H.
      - destruct a as [d|d| |t l|t|t|t]; cbn [step] in E.
        + destruct (0 <? d); [|discriminate E]. injection E as <-. exact T.
        + destruct (value s0); try discriminate E. injection E as <-. exact T.
        + destruct (value s0); try discriminate E. injection E as <-. exact T.
        + destruct (th s0 t); try discriminate E. destruct (taken s0); [discriminate E|]. destruct l as [ns|]; [|discriminate E]. destruct (in_range (now s0 + ns)); [|discriminate E]. injection E as <-. exact T.
        + destruct (th s0 t); try discriminate E. destruct (taken s0); [discriminate E|]. destruct (value s0); try discriminate E. destruct (called + l <=? now s0); [|discriminate E]. injection E as <-.
          cbn [taken log]. rewrite existsb_app, <- T. reflexivity.
        + destruct (th s0 t); try discriminate E. destruct (taken s0); [discriminate E|]. destruct (value s0); try discriminate E; injection E as <-; exact T.
        + destruct (th s0 t); try discriminate E. destruct (taken s0); [discriminate E|]. injection E as <-. cbn [taken log]. rewrite existsb_app. unfold gives. cbn [existsb en_result].
          destruct (value s0); cbn; now rewrite orb_true_r.
      - destruct a as [d|d| |t l|t|t|t]; cbn [step] in E.
        + destruct (0 <? d); [|discriminate E]. injection E as <-. exact L.
        + destruct (value s0); try discriminate E. injection E as <-. exact L.
        + destruct (value s0); try discriminate E. injection E as <-. exact L.
        + destruct (th s0 t); try discriminate E. destruct (taken s0); [discriminate E|]. destruct l as [ns|]; [|discriminate E]. destruct (in_range (now s0 + ns)); [|discriminate E]. injection E as <-. exact L.
        + destruct (th s0 t); try discriminate E. destruct (taken s0); [discriminate E|]. destruct (value s0); try discriminate E. destruct (called + l <=? now s0); [|discriminate E]. injection E as <-.
          cbn [log]. rewrite filter_app, app_length. cbn. lia.
        + destruct (th s0 t); try discriminate E. destruct (taken s0); [discriminate E|]. destruct (value s0); try discriminate E; injection E as <-; exact L.
        + destruct (th s0 t); try discriminate E. destruct (taken s0); [discriminate E|]. injection E as <-. cbn [log]. rewrite filter_app, app_length.
          assert (Z : filter gives (log s0) = []).
          { destruct (filter gives (log s0)) as [|e r] eqn:F; [reflexivity|]. assert (X : List.In e (filter gives (log s0))) by (rewrite F; left; reflexivity).
            apply filter_In in X. destruct X as [X1 X2]. assert (Y : existsb gives (log s0) = true) by (apply existsb_exists; exists e; now split). congruence. }
          rewrite Z. cbn. destruct (value s0); cbn; lia. }
    apply (G h (start t0) s H); [reflexivity|cbn; lia].
Qed.

(** One caller at a time, until it has got something: nothing is undefined. *)
Definition single (s : state) : Prop := (forall t u, th s t <> Out -> th s u <> Out -> t = u) /\ (taken s = true -> forall t, th s t = Out).
Lemma range_of z : - 2 ^ 63 <= z < 2 ^ 63 -> in_range z = true.
Proof. intros H. unfold in_range. apply andb_true_iff. split; lia. Qed.
Lemma single_step a s s' : single s -> modest s a -> alone s a -> taken s = existsb gives (log s) -> step a s <> Bad /\ (step a s = Next s' -> single s').
Proof.
  intros [S1 S2] M Al T. destruct a as [d|d| |t l|t|t|t]; cbn [step].
  - destruct (0 <? d); split; try discriminate. intros H. injection H as <-. split; assumption.
  - destruct (value s); split; try discriminate. intros H. injection H as <-. split; assumption.
  - destruct (value s); split; try discriminate. intros H. injection H as <-. split; assumption.
  - cbn [alone modest] in Al, M. destruct Al as [Al1 Al2]. rewrite (Al1 t), T, Al2. destruct l as [ns|]; [|destruct M]. rewrite (range_of _ M). split; [discriminate|].
    intros H. injection H as <-. split; cbn [th taken]; [|discriminate].
    intros a b. unfold set. destruct (Nat.eqb a t) eqn:A; destruct (Nat.eqb b t) eqn:B; try (rewrite Al1; congruence).
    apply Nat.eqb_eq in A. apply Nat.eqb_eq in B. congruence.
  - destruct (th s t) eqn:P; try (split; discriminate). destruct (taken s) eqn:K; [rewrite (S2 eq_refl t) in P; discriminate P|].
    destruct (value s); try (split; discriminate). destruct (called + l <=? now s); split; try discriminate. intros H. injection H as <-. split; cbn [th taken]; [|discriminate].
    intros a b. unfold set. destruct (Nat.eqb a t); [congruence|]. destruct (Nat.eqb b t); [congruence|]. apply S1.
  - destruct (th s t) eqn:P; try (split; discriminate). destruct (taken s) eqn:K; [rewrite (S2 eq_refl t) in P; discriminate P|].
    destruct (value s); (split; [discriminate|]); try discriminate; intros H; injection H as <-; (split; cbn [th taken]; [|discriminate]);
    intros a b; unfold set; destruct (Nat.eqb a t) eqn:A; destruct (Nat.eqb b t) eqn:B; intros X Y;
    try (apply Nat.eqb_eq in A; subst a); try (apply Nat.eqb_eq in B; subst b); try reflexivity; apply S1; try assumption; congruence.
  - destruct (th s t) eqn:P; try (split; discriminate). destruct (taken s) eqn:K; [rewrite (S2 eq_refl t) in P; discriminate P|].
    split; [discriminate|]. intros H. injection H as <-.
    assert (Z : forall a, set (th s) t Out a = Out).
    { intros a. unfold set. destruct (Nat.eqb a t) eqn:A; [reflexivity|]. apply Nat.eqb_neq in A. destruct (th s a) eqn:B; [reflexivity| |]; exfalso; apply A; apply S1; congruence. }
    split; cbn [th taken].
    + intros a b X. rewrite Z in X. congruence.
    + intros _. exact Z.
Qed.
Lemma never_bad t0 h : along modest h (start t0) -> along alone h (start t0) -> run h (start t0) <> Bad.
Proof.
  assert (G : forall h k s0, inv t0 k s0 -> pass k t0 = now s0 -> single s0 -> along modest h s0 -> along alone h s0 -> run h s0 <> Bad).
  { clear. induction h as [|a h IH]; intros k s0 I T Sg M Al; [discriminate|]. cbn [run along] in *. destruct M as [M1 M2]. destruct Al as [A1 A2].
    destruct (step a s0) as [s1| |] eqn:E; [|destruct (single_step a s0 s0 Sg M1 A1 (i_taken _ _ _ I)) as [X _]; congruence|discriminate].
    destruct (inv_step _ _ _ _ _ I T E) as [I1 T1]. refine (IH _ _ I1 T1 _ M2 A2).
    exact (proj2 (single_step a s0 s1 Sg M1 A1 (i_taken _ _ _ I)) E). }
  intros M Al. refine (G h [] _ (inv0 t0) eq_refl _ M Al). split; cbn; congruence.
Qed.

(** A call under way returns, with the answer as soon as it is there, with None when its time is over. *)
Lemma returns t0 h s t c l : run h (start t0) = Next s -> th s t = PyWait_model.In c l -> taken s = false ->
  (forall d, value s = Answer d -> exists s', run [Ready t; Get t] s = Next s' /\ exists e, log s' = log s ++ [e] /\ en_thread e = t /\ en_result e = RData d) /\
  (value s = Lost -> exists s', run [Ready t; Get t] s = Next s' /\ exists e, log s' = log s ++ [e] /\ en_thread e = t /\ en_result e = RError) /\
  (value s = Waiting -> exists d s', run (match d with Some z => [Pass z; TimeOut t] | None => [TimeOut t] end) s = Next s' /\ exists e, log s' = log s ++ [e] /\ en_thread e = t /\ en_result e = RNone).
Proof.
  intros _ P K. split; [|split].
  - intros d V. eexists. split.
    + cbn [run step]. rewrite P, K, V. cbn [th]. rewrite set_same. cbn [taken]. reflexivity.
    + eexists. cbn [log value]. split; [reflexivity|]. split; reflexivity.
  - intros V. eexists. split.
    + cbn [run step]. rewrite P, K, V. cbn [th]. rewrite set_same. cbn [taken]. reflexivity.
    + eexists. cbn [log value]. split; [reflexivity|]. split; reflexivity.
  - intros V. destruct (c + l <=? now s) eqn:L.
    + exists None. eexists. split; [cbn [run step]; rewrite P, K, V, L; reflexivity|]. eexists. cbn [log]. split; [reflexivity|]. split; reflexivity.
    + apply Z.leb_gt in L. exists (Some (c + l - now s)). eexists. split.
      * cbn [run step]. replace (0 <? c + l - now s) with true by (symmetry; apply Z.ltb_lt; lia). cbn [th taken value now]. rewrite P, K, V.
        replace (c + l <=? now s + (c + l - now s)) with true by (symmetry; apply Z.leb_le; lia). reflexivity.
      * eexists. cbn [log]. split; [reflexivity|]. split; reflexivity.
Qed.
