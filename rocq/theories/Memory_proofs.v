(** Proofs for C90. *)
From Coq Require Import List Arith Bool Lia.
Import ListNotations.
From Verif Require Import UnixSystem_model UnixSystem_proofs OMap_model OMap_proofs Collector_model Collector_spec Collector_proofs Delivery_model Memory_model Memory_spec.

(** ** Buffers of threads *)
Lemma reached_inv cap s : reached cap s -> cinv s.
Proof. intros (ls & [H|H]); [exact (run_cinv cap _ _ _ (cinv0 false) H)|exact (run_cinv cap _ _ _ (cinv0 true) H)]. Qed.

Theorem active_exact cap s b : reached cap s -> In b (map snd (cs_active s)) <-> exists t, nth_error (cs_threads s) b = Some t /\ th_phase t <> TGone.
Proof.
  intros HR. apply reached_inv in HR. split.
  - intros H. apply in_map_iff in H. destruct H as ((k & b') & <- & H). destruct (ci_act1 _ HR _ _ H) as (t & E & _ & P). eauto.
  - intros (t & E & P). apply in_map_iff. exists (th_tid t, b). split; [reflexivity|]. exact (ci_act2 _ HR _ _ E P).
Qed.

Lemma orphans_step cap l s s' : cinv s -> cstep cap l s = Some s' -> l <> SSwap ->
  length (cs_orphans s') = length (cs_orphans s) + (if is_exit l then 1 else 0) /\ (forall e, In e (cs_orphans s) -> In e (cs_orphans s')).
Proof.
  intros I H HN. destruct l as [tid|i x|i|i| | | |k| |]; cbn [cstep is_exit] in *.
  - destruct (existsb _ _); [discriminate H|]. destruct (mfind _ _ _); [discriminate H|]. injection H as <-. cbn. split; [lia|auto].
  - unfold tnth in H. destruct (nth_error (cs_threads s) i) as [t|]; [|discriminate H]. destruct (th_phase t); try discriminate H.
    injection H as <-. destruct (_ <? _); cbn; split; auto; lia.
  - unfold tnth in H. destruct (nth_error (cs_threads s) i) as [t|] eqn:Ei; [|discriminate H]. destruct (th_phase t) eqn:P; try discriminate H.
    assert (A : In (th_tid t, i) (cs_active s)) by (apply (ci_act2 _ I _ _ Ei); rewrite P; discriminate).
    apply (in_find Nat.ltb nat_order) in A; [|exact (ci_aord _ I)]. rewrite A in H. injection H as <-. cbn [cs_orphans].
    rewrite app_length. cbn. split; [lia|]. intros e He. apply in_or_app. now left.
  - unfold tnth in H. destruct (nth_error (cs_threads s) i) as [t|]; [|discriminate H]. destruct (th_phase t); try discriminate H.
    injection H as <-. cbn. split; [lia|auto].
  - injection H as <-. cbn. split; [lia|auto].
  - congruence.
  - destruct (cs_pc s); try discriminate H. injection H as <-. cbn. split; [lia|auto].
  - destruct (cs_pc s) as [|l|[|[[tid b] o] rest] ev|]; try discriminate H. destruct (nth_error (cs_threads s) b); [|discriminate H].
    destruct (if o then _ else _); [|discriminate H]. injection H as <-. cbn. split; [lia|auto].
  - destruct (cs_pc s) as [|l|[|y rest] ev|]; try discriminate H. injection H as <-. destruct (count_events ev =? 0); cbn; split; auto; lia.
  - destruct (cs_pc s); try discriminate H. injection H as <-. cbn. split; [lia|auto].
Qed.

Theorem orphans_count cap ls : forall s s', cinv s -> crun cap ls s = Some s' -> no_swap ls ->
  length (cs_orphans s') = length (cs_orphans s) + exits ls /\ (forall e, In e (cs_orphans s) -> In e (cs_orphans s')).
Proof.
  induction ls as [|l ls IH]; intros s s' I H HN; cbn [crun] in H.
  - injection H as <-. unfold exits. cbn. split; [lia|auto].
  - destruct (cstep cap l s) as [s1|] eqn:E; [|discriminate H]. inversion_clear HN as [|l0 ls0 Hl HN'].
    destruct (orphans_step _ _ _ _ I E Hl) as (C & K). destruct (IH _ _ (step_cinv cap _ _ _ I E) H HN') as (C' & K').
    split; [|auto]. unfold exits in *. cbn [filter]. rewrite C', C. destruct (is_exit l); cbn [length]; lia.
Qed.

(** Without a pass of the sender every buffer of an ended thread stays. *)
Theorem all_stay cap ls s s' : reached cap s -> crun cap ls s = Some s' -> no_swap ls -> length (cs_orphans s') = length (cs_orphans s) + exits ls.
Proof. intros HR H HN. apply (orphans_count cap ls s s' (reached_inv _ _ HR) H HN). Qed.
Theorem kept_stays cap ls s s' b : reached cap s -> crun cap ls s = Some s' -> no_swap ls -> In b (map snd (cs_orphans s)) -> kept s' b.
Proof.
  intros HR H HN Hb. destruct (orphans_count cap ls s s' (reached_inv _ _ HR) H HN) as (_ & K).
  unfold kept. rewrite !map_app. apply in_or_app. right. apply in_or_app. left. apply in_map_iff in Hb. destruct Hb as (e & <- & He).
  apply in_map. auto.
Qed.
(** After the sender has ended there is no further pass. *)
Lemma stopped_run cap ls : forall s s', cs_pc s = SStopped -> crun cap ls s = Some s' -> no_swap ls /\ cs_pc s' = SStopped.
Proof.
  induction ls as [|l ls IH]; intros s s' P H; cbn [crun] in H; [injection H as <-; split; [constructor|exact P]|].
  destruct (cstep cap l s) as [s1|] eqn:E; [|discriminate H].
  assert (X : l <> SSwap /\ cs_pc s1 = SStopped).
  { destruct l as [tid|i x|i|i| | | |k| |]; cbn [cstep] in E; unfold tnth in E; rewrite ?P in E; try discriminate E.
    - destruct (existsb _ _); [discriminate E|]. destruct (mfind _ _ _); [discriminate E|]. injection E as <-. split; [discriminate|reflexivity].
    - destruct (nth_error (cs_threads s) i) as [t|]; [|discriminate E]. destruct (th_phase t); try discriminate E. injection E as <-. split; [discriminate|]. destruct (_ <? _); [cbn; exact P|exact P].
    - destruct (nth_error (cs_threads s) i) as [t|]; [|discriminate E]. destruct (th_phase t); try discriminate E. injection E as <-. split; [discriminate|]. cbn. reflexivity.
    - destruct (nth_error (cs_threads s) i) as [t|]; [|discriminate E]. destruct (th_phase t); try discriminate E. injection E as <-. split; [discriminate|]. cbn. reflexivity.
    - injection E as <-. split; [discriminate|]. cbn. reflexivity. }
  destruct X as (X1 & X2). destruct (IH _ _ X2 H) as (A & B). split; [constructor; assumption|exact B].
Qed.
Theorem stopped_stays cap ls s s' : reached cap s -> cs_pc s = SStopped -> crun cap ls s = Some s' -> length (cs_orphans s') = length (cs_orphans s) + exits ls.
Proof. intros HR P H. destruct (stopped_run cap ls s s' P H) as (HN & _). exact (all_stay cap ls s s' HR H HN). Qed.

(** A pass of the sender: what it takes is gone when it is over. *)
Lemma orphans_bound cap ls : forall s s', cinv s -> crun cap ls s = Some s' -> no_exit ls -> cs_orphans s' = cs_orphans s \/ cs_orphans s' = [].
Proof.
  induction ls as [|l ls IH]; intros s s' I H HN; cbn [crun] in H; [injection H as <-; auto|].
  destruct (cstep cap l s) as [s1|] eqn:E; [|discriminate H]. inversion_clear HN as [|l0 ls0 Hl HN'].
  specialize (IH _ _ (step_cinv cap _ _ _ I E) H HN').
  assert (X : cs_orphans s1 = cs_orphans s \/ cs_orphans s1 = []).
  { clear IH H. destruct l as [tid|i x|i|i| | | |k| |]; cbn [cstep] in E; unfold tnth in E; try discriminate Hl.
    - destruct (existsb _ _); [discriminate E|]. destruct (mfind _ _ _); [discriminate E|]. injection E as <-. now left.
    - destruct (nth_error (cs_threads s) i) as [t|]; [|discriminate E]. destruct (th_phase t); try discriminate E. injection E as <-. destruct (_ <? _); now left.
    - destruct (nth_error (cs_threads s) i) as [t|]; [|discriminate E]. destruct (th_phase t); try discriminate E. injection E as <-. now left.
    - injection E as <-. now left.
    - destruct (cs_pc s); try discriminate E. injection E as <-. now right.
    - destruct (cs_pc s); try discriminate E. injection E as <-. now left.
    - destruct (cs_pc s) as [|l|[|[[tid b] o] rest] ev|]; try discriminate E. destruct (nth_error (cs_threads s) b); [|discriminate E].
      destruct (if o then _ else _); [|discriminate E]. injection E as <-. now left.
    - destruct (cs_pc s) as [|l|[|y rest] ev|]; try discriminate E. injection E as <-. destruct (count_events ev =? 0); now left.
    - destruct (cs_pc s); try discriminate E. injection E as <-. now left. }
  destruct IH as [-> | ->]; [exact X|now right].
Qed.
Lemma swap_clears cap ls : forall s s', cinv s -> crun cap ls s = Some s' -> no_exit ls -> In SSwap ls -> cs_orphans s' = [].
Proof.
  induction ls as [|l ls IH]; intros s s' I H HN HI; cbn [crun] in H; [destruct HI|].
  destruct (cstep cap l s) as [s1|] eqn:E; [|discriminate H]. inversion_clear HN as [|l0 ls0 Hl HN']. destruct HI as [->|HI].
  - assert (cs_orphans s1 = []). { cbn [cstep] in E. destruct (cs_pc s); try discriminate E. injection E as <-. reflexivity. }
    destruct (orphans_bound cap ls _ _ (step_cinv cap _ _ _ I E) H HN') as [-> | ->]; auto.
  - exact (IH _ _ (step_cinv cap _ _ _ I E) H HN' HI).
Qed.
Theorem pass_releases cap ls s s' : reached cap s -> crun cap ls s = Some s' -> no_exit ls -> In SSwap ls -> cs_pc s' = SIdle ->
  forall b, kept s' b <-> exists t, nth_error (cs_threads s') b = Some t /\ th_phase t <> TGone.
Proof.
  intros HR H HN HI P b. assert (I := reached_inv _ _ HR). unfold kept. rewrite (swap_clears cap ls s s' I H HN HI). unfold todo_all. rewrite P. cbn [app]. rewrite app_nil_r.
  apply (active_exact cap). destruct HR as (ls0 & [HR|HR]); exists (ls0 ++ ls); [left|right]; rewrite crun_app, HR; exact H.
Qed.
Theorem between_passes cap ls s s' : reached cap s -> cs_orphans s = [] -> crun cap ls s = Some s' -> no_swap ls -> length (cs_orphans s') = exits ls.
Proof. intros HR H0 H HN. rewrite (all_stay cap ls s s' HR H HN), H0. reflexivity. Qed.

(** Threads that come and go, one after the other: they may even have the same thread id. *)
Fixpoint parade (tid k n : nat) : list clabel :=
  match n with 0 => [] | S n' => TStart tid :: TEmit k 0 :: TOrphan k :: TErase k :: parade tid (S k) n' end.
Lemma parade_exits tid n : forall k, exits (parade tid k n) = n.
Proof. induction n as [|n IH]; intros k; [reflexivity|]. cbn [parade]. unfold exits in *. cbn [filter is_exit length]. now rewrite IH. Qed.
Lemma parade_swap tid n : forall k, no_swap (parade tid k n).
Proof. induction n as [|n IH]; intros k; [constructor|]. cbn [parade]. repeat (constructor; [discriminate|]). apply IH. Qed.
Lemma parade_runs cap tid n : forall s, cs_active s = [] -> Forall (fun t => th_phase t = TGone) (cs_threads s) ->
  exists s', crun cap (parade tid (length (cs_threads s)) n) s = Some s' /\ cs_active s' = [] /\ Forall (fun t => th_phase t = TGone) (cs_threads s') /\
    length (cs_threads s') = length (cs_threads s) + n /\ cs_pc s' = cs_pc s.
Proof.
  induction n as [|n IH]; intros s HA HF.
  - exists s. cbn [parade crun]. repeat split; auto.
  - cbn [parade]. set (k := length (cs_threads s)).
    assert (E1 : existsb (fun t => (th_tid t =? tid) && match th_phase t with TGone => false | _ => true end) (cs_threads s) = false).
    { apply not_true_is_false. intros X. apply existsb_exists in X. destruct X as (t & Ht & X). rewrite Forall_forall in HF. rewrite (HF t Ht) in X. rewrite andb_false_r in X. discriminate X. }
    set (t0 := {| th_tid := tid; th_phase := TRunning; th_buf := []; th_accepted := [] |}).
    assert (N0 : nth_error (cs_threads s ++ [t0]) k = Some t0) by (unfold k; rewrite nth_error_app2 by lia; now rewrite Nat.sub_diag).
    rewrite crun_cons. cbn [cstep]. rewrite E1, HA. cbn [mfind minsert]. fold k. fold t0.
    rewrite crun_cons. cbn [cstep]. unfold tnth. cbn [cs_threads]. rewrite N0. cbn [th_phase t0].
    set (s2 := if length (th_buf t0) <? cap then _ else _).
    assert (S2 : exists t, cs_threads s2 = set_nth k t (cs_threads s ++ [t0]) /\ th_tid t = tid /\ th_phase t = TRunning /\ cs_active s2 = [(tid, k)] /\ cs_pc s2 = cs_pc s).
    { subst s2. destruct (length (th_buf t0) <? cap); [eexists; cbn [with_threads cs_threads cs_active cs_pc]; repeat split; reflexivity|].
      exists t0. cbn [cs_threads cs_active cs_pc]. repeat split; try reflexivity. symmetry. clear - N0. revert N0. generalize (cs_threads s ++ [t0]) as l. generalize k as i.
      induction i as [|i IH]; intros [|y l] H; try discriminate H; cbn in *; [congruence|]. now rewrite IH. }
    clearbody s2. destruct S2 as (t & Et & Tt & Pt & Ea & Ep).
    assert (Lk : k < length (cs_threads s ++ [t0])) by (apply nth_error_lt in N0; exact N0).
    rewrite crun_cons. cbn [cstep]. unfold tnth. rewrite Et, set_nth_same by exact Lk. rewrite Pt, Ea, Tt. cbn [mfind]. rewrite Nat.ltb_irrefl.
    rewrite crun_cons. cbn [cstep]. unfold tnth. cbn [cs_threads]. rewrite set_nth_same by (rewrite set_nth_length; exact Lk). cbn [th_phase th_tid cs_active]. cbn [merase]. rewrite Nat.ltb_irrefl.
    match goal with |- exists s', crun cap _ ?x = Some s' /\ _ => set (s4 := x) end.
    assert (F4 : Forall (fun t => th_phase t = TGone) (cs_threads s4)).
    { subst s4. cbn [cs_threads]. apply Forall_forall. intros y Hy. apply In_nth_error in Hy. destruct Hy as (j & Hj).
      destruct (Nat.eq_dec j k) as [->|Nj].
      - rewrite set_nth_same in Hj by (rewrite !set_nth_length; exact Lk). injection Hj as <-. reflexivity.
      - rewrite !set_nth_other in Hj by exact Nj. destruct (Nat.lt_ge_cases j k) as [L|L].
        + rewrite nth_error_app1 in Hj by exact L. apply nth_error_In in Hj. rewrite Forall_forall in HF. now apply HF.
        + assert (X : j < length (cs_threads s ++ [t0])) by (eapply nth_error_lt; exact Hj). rewrite app_length in X. cbn in X. fold k in X. lia. }
    assert (L4 : length (cs_threads s4) = S k) by (subst s4; cbn [cs_threads]; rewrite !set_nth_length, app_length; cbn; fold k; lia).
    destruct (IH s4 eq_refl F4) as (s' & R & A' & F' & L' & P'). exists s'. rewrite L4 in R. split; [exact R|]. split; [exact A'|]. split; [exact F'|].
    split; [lia|]. rewrite P'. subst s4. cbn [cs_pc]. exact Ep.
Qed.

Theorem unbounded cap n : exists ls s, crun cap ls c0 = Some s /\ Forall (fun t => th_phase t = TGone) (cs_threads s) /\ length (cs_orphans s) = n /\ cs_pc s = SIdle.
Proof.
  destruct (parade_runs cap 0 n c0 eq_refl (Forall_nil _)) as (s & R & _ & F & _ & P). exists (parade 0 0 n), s. split; [exact R|]. split; [exact F|]. split; [|exact P].
  rewrite (all_stay cap (parade 0 0 n) c0 s); [cbn; apply parade_exits|exists []; left; reflexivity|exact R|apply parade_swap].
Qed.
Theorem unbounded_stopped cap n : exists ls s, crun cap (SAttach :: SStop :: ls) c0 = Some s /\ Forall (fun t => th_phase t = TGone) (cs_threads s) /\ length (cs_orphans s) = n /\
  forall ls' s', crun cap ls' s = Some s' -> n <= length (cs_orphans s').
Proof.
  set (s0 := {| cs_threads := []; cs_active := []; cs_orphans := []; cs_pc := SStopped; cs_attached := true; cs_sent := []; cs_lost := [] |}).
  destruct (parade_runs cap 0 n s0 eq_refl (Forall_nil _)) as (s & R & _ & F & _ & P). exists (parade 0 0 n), s.
  assert (R0 : crun cap (SAttach :: SStop :: parade 0 0 n) c0 = Some s) by exact R. split; [exact R0|]. split; [exact F|].
  assert (HR : reached cap s0) by (exists [SAttach; SStop]; left; reflexivity).
  assert (C : length (cs_orphans s) = n) by (rewrite (all_stay cap (parade 0 0 n) s0 s HR R (parade_swap 0 n 0)); cbn; apply parade_exits).
  split; [exact C|]. intros ls' s' H. assert (HR' : reached cap s) by (eexists; left; exact R0).
  rewrite (stopped_stays cap ls' s s' HR' P H). lia.
Qed.

(** ** Subscriptions *)
Section Subs.
Context {L E : Type} (parse : L -> option E).
Definition rest_set (s : state E) : list nat :=
  match d_phase s with
  | Idle => d_set s
  | Pass _ k t => k ++ filter (active s) t
  | Seen _ k i t | Ready _ k i t | Calling _ k i t => k ++ i :: filter (active s) t
  end.
Lemma reader_step x s s' c : reader x = true -> step parse x s = Next s' c -> d_subs s' = d_subs s /\ rest_set s' = rest_set s.
Proof.
  intros Hr H. destruct x as [l| | | | |a|i|i|i|]; try discriminate Hr; cbn [step] in H; destruct (d_phase s) as [|e k [|i t]|e k i t|e k i t|e k i t] eqn:P; try discriminate H.
  - injection H as <- _. split; [reflexivity|]. unfold rest_set. cbn [d_phase d_set]. rewrite P. cbn. now rewrite app_nil_r.
  - destruct (active s i) eqn:A; injection H as <- _; (split; [reflexivity|]); unfold rest_set; cbn [d_phase]; rewrite P; cbn [filter]; rewrite A; reflexivity.
  - destruct (callable s i) eqn:A; injection H as <- _; (split; [reflexivity|]); unfold rest_set; cbn [d_phase]; rewrite P; [reflexivity|]. now rewrite <- app_assoc.
  - destruct (callable s i) eqn:A; [|discriminate H]. injection H as <- _. split; [reflexivity|]. unfold rest_set. cbn [d_phase]. rewrite P. reflexivity.
  - injection H as <- _. split; [reflexivity|]. unfold rest_set. cbn [d_phase]. rewrite P. now rewrite <- app_assoc.
Qed.
Lemma reader_run xs : forall s s' cs, Forall (fun x => reader x = true) xs -> run parse xs s = Ended s' cs -> d_subs s' = d_subs s /\ rest_set s' = rest_set s.
Proof.
  induction xs as [|x xs IH]; intros s s' cs HF H; cbn [run] in H; [injection H as <- _; auto|].
  inversion_clear HF as [|x0 xs0 Hx HF']. destruct (step parse x s) as [s1 c| |] eqn:E1; try discriminate H.
  destruct (run parse xs s1) as [s2 cs2| |] eqn:E2; try discriminate H. injection H as <- _.
  destruct (reader_step _ _ _ _ Hx E1) as (A & B). destruct (IH _ _ _ HF' E2) as (A' & B'). split; congruence.
Qed.
Theorem line_cleans l xs s s' cs : d_phase s = Idle -> Forall (fun x => reader x = true) xs -> run parse (Line l :: xs) s = Ended s' cs -> d_phase s' = Idle ->
  d_set s' = filter (active s') (d_set s).
Proof.
  intros P HF H P'. cbn [run step] in H. rewrite P in H. destruct (d_set s) as [|i set] eqn:Es.
  - destruct (run parse xs s) as [s2 cs2| |] eqn:E2; try discriminate H. injection H as -> _.
    destruct (reader_run _ _ _ _ HF E2) as (_ & B). unfold rest_set in B. rewrite P, P', Es in B. exact B.
  - destruct (parse l) as [e|]; [|discriminate H]. cbn [go] in H.
    destruct (run parse xs _) as [s2 cs2| |] eqn:E2 in H; try discriminate H. injection H as -> _.
    destruct (reader_run _ _ _ _ HF E2) as (A & B). unfold rest_set in B. rewrite P' in B. cbn [d_phase d_subs app] in A, B. rewrite B.
    unfold active. cbn [d_subs]. rewrite A. reflexivity.
Qed.
Lemma active_modify i f us j : nth_error (modify i f us) j = if i =? j then option_map f (nth_error us i) else nth_error us j.
Proof.
  revert i j. induction us as [|u us IH]; intros [|i] [|j]; cbn [modify nth_error Nat.eqb option_map]; auto; try (destruct (i =? j); reflexivity).
Qed.
Lemma modify_length i f us : length (modify i f us) = length us.
Proof. revert i. induction us as [|u us IH]; intros [|i]; cbn; auto. Qed.
Lemma visits_run n : forall s, d_phase s = Idle -> (forall i, active s i = false) ->
  exists s', run parse (visits (length (d_subs s)) n) s = Ended s' [] /\ d_phase s' = Idle /\ length (d_set s') = length (d_set s) + n /\ (forall i, active s' i = false).
Proof.
  induction n as [|n IH]; intros s P HA; [exists s; cbn [visits run]; repeat split; auto|].
  cbn [visits come_and_go app]. set (k := length (d_subs s)).
  assert (L1 : length (d_subs s ++ [{| u_active := true; u_call := true |}]) = S k) by (rewrite app_length; cbn; fold k; lia).
  assert (LT : (k <? S k) = true) by (apply Nat.ltb_lt; lia).
  set (s1 := {| d_subs := d_subs s ++ [{| u_active := true; u_call := true |}]; d_set := k :: d_set s; d_phase := @Idle E |}).
  set (s2 := {| d_subs := modify k (fun u => {| u_active := false; u_call := u_call u |}) (d_subs s1); d_set := k :: d_set s; d_phase := @Idle E |}).
  set (s3 := {| d_subs := modify k (fun u => {| u_active := u_active u; u_call := false |}) (d_subs s2); d_set := k :: d_set s; d_phase := @Idle E |}).
  assert (L3 : length (d_subs s3) = S k) by (subst s3 s2 s1; cbn [d_subs]; now rewrite !modify_length).
  assert (A3 : forall i, active s3 i = false).
  { intros i. subst s3 s2 s1. unfold active. cbn [d_subs]. rewrite !active_modify. destruct (Nat.eqb_spec k i) as [<-|N].
    - rewrite Nat.eqb_refl. destruct (nth_error _ k); reflexivity.
    - destruct (Nat.lt_ge_cases i k) as [Lt|Ge]; [rewrite nth_error_app1 by exact Lt; apply (HA i)|]. rewrite nth_error_app2 by exact Ge. fold k.
      destruct (i - k) as [|m] eqn:Em; [lia|]. cbn. destruct m; reflexivity. }
  destruct (IH s3 eq_refl A3) as (s' & R & P' & C & A'). rewrite L3 in R. exists s'. split; [|split; [exact P'|split; [|exact A']]].
  - assert (St1 : step parse (Subscribe 0) s = Next s1 None) by (cbn [step]; rewrite P; reflexivity).
    assert (St2 : step parse (Deactivate k) s1 = Next s2 None) by (cbn [step]; subst s1; cbn [d_subs]; rewrite L1, LT; reflexivity).
    assert (St3 : step parse (Clear k) s2 = Next s3 None) by (cbn [step]; subst s2 s1; cbn [d_subs d_phase]; rewrite modify_length, L1, LT; reflexivity).
    assert (St4 : step parse (Drop k) s3 = Next s3 None) by (cbn [step]; rewrite L3, LT; reflexivity).
    cbn [run]. rewrite St1, St2, St3, St4, R. reflexivity.
  - rewrite C. subst s3. cbn [d_set length]. lia.
Qed.
Theorem subscriptions_stay n : exists s, run parse (visits 0 n) state0 = Ended s [] /\ d_phase s = Idle /\ length (d_set s) = n /\ (forall i, active s i = false).
Proof.
  destruct (visits_run n state0 eq_refl) as (s & R & P & C & A); [intros [|i]; reflexivity|]. exists s. auto.
Qed.
End Subs.

(** ** Loopback *)
Lemma w_run_spec l : forall s, length (wl_alive s) = length (wl_entries s) -> wl_entries s = seq 0 (length (wl_entries s)) ->
  let s' := w_run l s in length (wl_entries s') = length (wl_entries s) + adds l /\ length (wl_alive s') = length (wl_entries s') /\ wl_entries s' = seq 0 (length (wl_entries s')).
Proof.
  induction l as [|c l IH]; intros s H1 H2; cbn [w_run fold_left].
  - unfold adds. cbn. repeat split; auto.
  - assert (S1 : length (wl_alive (w_step c s)) = length (wl_entries (w_step c s)) /\ wl_entries (w_step c s) = seq 0 (length (wl_entries (w_step c s))) /\
      length (wl_entries (w_step c s)) = length (wl_entries s) + match c with WAdd => 1 | _ => 0 end).
    { destruct c as [|i|]; cbn [w_step wl_alive wl_entries]; [|destruct (i <? length (wl_alive s)); rewrite ?set_nth_length; repeat split; auto; lia|repeat split; auto; lia].
      rewrite !app_length. cbn [length]. split; [lia|]. split; [|lia]. rewrite Nat.add_1_r, seq_S, <- H2, H1. reflexivity. }
    destruct S1 as (A & B & C). destruct (IH _ A B) as (X & Y & Z). repeat split; [|exact Y|exact Z].
    unfold w_run in X. rewrite X, C. unfold adds. cbn [filter]. destruct c; cbn [length]; lia.
Qed.
Theorem loopback_stays l : length (wl_entries (w_run l weak0)) = adds l.
Proof. destruct (w_run_spec l weak0 eq_refl eq_refl) as (H & _). exact H. Qed.
Lemma adds_app l l' : adds (l ++ l') = adds l + adds l'.
Proof. unfold adds. rewrite filter_app, app_length. reflexivity. Qed.
Lemma in_use_snoc l c i : in_use (l ++ [c]) i <-> (in_use l i /\ c <> WRelease i) \/ (c = WAdd /\ adds l = i).
Proof.
  split.
  - intros (l1 & l2 & E & A & N). destruct l2 as [|x l2] using rev_ind.
    + apply app_inj_tail in E as (-> & ->). auto.
    + clear IHl2. change (l1 ++ WAdd :: l2 ++ [x]) with (l1 ++ (WAdd :: l2) ++ [x]) in E. rewrite app_assoc in E. apply app_inj_tail in E as (-> & ->). left. split.
      * exists l1, l2. split; auto. split; auto. intros I. apply N. apply in_or_app. auto.
      * intros ->. apply N. apply in_or_app. right. left. reflexivity.
  - intros [((l1 & l2 & -> & A & N) & C)|(-> & A)].
    + exists l1, (l2 ++ [c]). split; [rewrite <- app_assoc; reflexivity|]. split; auto. intros I. apply in_app_or in I as [I|[I|[]]]; auto.
    + exists l, []. auto.
Qed.
Lemma alive_in_use l : forall i, nth i (wl_alive (w_run l weak0)) false = true <-> in_use l i.
Proof.
  induction l as [|c l IH] using rev_ind; intros i.
  - cbn. split; [destruct i; discriminate|]. intros (l1 & l2 & E & _). destruct l1; discriminate E.
  - destruct (w_run_spec l weak0 eq_refl eq_refl) as (L & L' & _). cbn in L. rewrite in_use_snoc, <- IH.
    unfold w_run in *. rewrite fold_left_app. cbn [fold_left]. set (s := fold_left (fun s c => w_step c s) l weak0) in *. destruct c as [|j|]; cbn [w_step wl_alive].
    + destruct (Nat.lt_ge_cases i (length (wl_alive s))) as [X|X].
      * rewrite app_nth1 by auto. split; [left; split; [auto|discriminate]|]. intros [(H & _)|(_ & H)]; [auto|lia].
      * rewrite app_nth2 by auto. destruct (i - length (wl_alive s)) as [|d] eqn:D.
        -- cbn. split; [intros _; right; split; [reflexivity|lia]|auto].
        -- cbn. split; [destruct d; discriminate|]. intros [(H & _)|(_ & H)]; [rewrite nth_overflow in H by auto; discriminate H|lia].
    + destruct (j <? length (wl_alive s)) eqn:J.
      * apply Nat.ltb_lt in J. destruct (Nat.eq_dec i j) as [->|NE].
        -- assert (Q : nth j (set_nth j false (wl_alive s)) false = false) by (apply nth_error_nth; apply set_nth_same; exact J).
           rewrite Q. split; [discriminate|]. intros [(_ & H)|(H & _)]; [now destruct H|discriminate H].
        -- assert (Q : nth i (set_nth j false (wl_alive s)) false = nth i (wl_alive s) false).
           { clear - NE. revert i j NE. induction (wl_alive s) as [|b m IHm]; intros i j NE; [destruct j; reflexivity|]. destruct j as [|j], i as [|i]; cbn; auto; now destruct NE. }
           rewrite Q. split; [left; split; [auto|congruence]|]. intros [(H & _)|(H & _)]; [auto|discriminate H].
      * apply Nat.ltb_ge in J. split; [|intros [(H & _)|(H & _)]; [auto|discriminate H]]. intros H. left. split; [auto|]. intros E. injection E as ->. rewrite nth_overflow in H by auto. discriminate H.
    + split; [left; split; [auto|discriminate]|]. intros [(H & _)|(H & _)]; [auto|discriminate H].
Qed.
Theorem loopback_found l i : In i (w_found (w_run l weak0)) <-> in_use l i.
Proof.
  rewrite <- alive_in_use.
  destruct (w_run_spec l weak0 eq_refl eq_refl) as (_ & H1 & H2). unfold w_found. rewrite filter_In. split; [tauto|]. intros H. split; [|exact H].
  rewrite H2. apply in_seq. split; [lia|]. destruct (Nat.lt_ge_cases i (length (wl_alive (w_run l weak0)))) as [L|L]; [lia|]. rewrite nth_overflow in H by exact L. discriminate H.
Qed.

(** ** The good cases occur *)
Definition the_kept (s : cstate) : list nat := map snd (cs_active s ++ cs_orphans s ++ todo_all s).
Example released :
  let before := crun 4 [TStart 5; TEmit 0 7; TOrphan 0; TErase 0; TStart 5] c0 in
  let after := match before with Some s => crun 4 [SSwap; SSnapshot; SCollect 1; SCollect 0; SSend] s | None => None end in
  option_map the_kept before = Some [1; 0] /\ option_map the_kept after = Some [1] /\ option_map (fun s => map th_phase (cs_threads s)) after = Some [TGone; TRunning].
Proof. vm_compute. auto. Qed.
Example cleaned :
  match run (@Some nat) (@visits nat 0 3) state0 with
  | Ended s _ => d_set s = [2; 1; 0] /\ match run (@Some nat) [Line 1; Look; Look; Look; Look] s with Ended s' _ => d_set s' = [] | _ => False end
  | _ => False
  end.
Proof. vm_compute. auto. Qed.
Example still_found : w_found (w_run [WAdd; WAdd; WRelease 0; WAdd] weak0) = [1; 2] /\ length (wl_entries (w_run [WAdd; WAdd; WRelease 0; WAdd] weak0)) = 3.
Proof. split; reflexivity. Qed.
