From Coq Require Import String List Arith NArith ZArith Ascii Bool Lia Reals Lra Floats.SpecFloat Sorting.Sorted Sorting.Permutation.
Import ListNotations.
From Flocq Require Import Core.Core IEEE754.BinarySingleNaN.
From Verif Require Import UnixSystem_model UnixSystem_proofs OMap_model TraceEvent_model Names_model Native_model Native_spec Native_proofs FloatTime_proofs.
From Verif Require Import Str_model Ctf_model Ctf_spec Ctf_proofs Lttng_model Lttng_spec Lttng_proofs LttngTime_proofs Config_model Tracers_model Tracers_spec.
Local Open Scope nat_scope.
Local Open Scope list_scope.
Local Notation length := List.length.

(** ** The same program *)
Definition bare (t : thr) : thr := {| t_tid := t_tid t; t_live := t_live t; t_cleanup := t_cleanup t; t_cache := t_cache t; t_scopes := t_scopes t; t_events := [] |}.
Record twin (c : cfg) (s : lprog) : Prop := {
  tw_process : g_process (lp_cfg s) = g_process c;
  tw_flags : g_flags (lp_cfg s) = g_flags c;
  tw_map : g_map (lp_cfg s) = g_map c;
  tw_threads : g_threads (lp_cfg s) = map bare (g_threads c);
  tw_out : Forall2 (fun t o => exists l, t_events t = map (fun e => event_of (fst e) (snd e)) l /\ o = map (fun e => lttng_event_of (fst e) (snd e)) l) (g_threads c) (lp_out s) }.

Definition strip (c : cfg) : cfg := {| g_process := g_process c; g_flags := g_flags c; g_map := g_map c; g_threads := map bare (g_threads c) |}.
Lemma twin_strip c s : twin c s -> lp_cfg s = strip c.
Proof. intros [A B C D _]. destruct (lp_cfg s). cbn in *. unfold strip. congruence. Qed.
Lemma map_set {A B} (f : A -> B) i x : forall l, map f (set_nth i x l) = set_nth i (f x) (map f l).
Proof. induction i as [|i IH]; intros [|y l]; cbn; auto. now rewrite IH. Qed.
Lemma strip_with i t c : strip (with_thr i t c) = with_thr i (bare t) (strip c).
Proof. unfold strip, with_thr. cbn. now rewrite map_set. Qed.
Lemma strip_ptr i t c : thread_state_ptr i (bare t) (strip c) = (fst (thread_state_ptr i t c), strip (snd (thread_state_ptr i t c))).
Proof.
  unfold thread_state_ptr. cbn [bare t_tid t_live t_cleanup t_cache t_scopes t_events strip g_map]. destruct (mfind Nat.ltb (t_tid t) (g_map c)) as [k|]; cbn [fst snd].
  - now rewrite strip_with.
  - unfold strip, with_thr. cbn. now rewrite map_set.
Qed.
Lemma strip_store k b c : strip (store_flag k b c) = store_flag k b (strip c). Proof. reflexivity. Qed.
Lemma strip_set i t b c : snd (set_thread_state i (bare t) b (strip c)) = strip (snd (set_thread_state i t b c)) /\ fst (set_thread_state i (bare t) b (strip c)) = fst (set_thread_state i t b c).
Proof. unfold set_thread_state. rewrite strip_ptr. destruct (thread_state_ptr i t c) as [k c1]. cbn [fst snd]. auto. Qed.
Lemma strip_scopes i l c : upd_scopes i l (strip c) = strip (upd_scopes i l c).
Proof.
  unfold upd_scopes. cbn [strip g_threads]. rewrite nth_error_map. destruct (nth_error (g_threads c) i) as [t|]; cbn [option_map]; [|reflexivity]. now rewrite strip_with.
Qed.
Lemma strip_remote r c : strip (fst (c_handle r c)) = fst (c_handle r (strip c)) /\ snd (c_handle r (strip c)) = snd (c_handle r c).
Proof.
  destruct r as [|sp p ths]; cbn [c_handle fst snd]; [auto|].
  set (f := fun (s : cfg) (kv : nat * bool) => match mfind Nat.ltb (fst kv) (g_map s) with Some k => store_flag k (snd kv) s | None => s end).
  set (c1 := if sp then store_process p c else c). assert (E1 : (if sp then store_process p (strip c) else strip c) = strip c1) by (unfold c1; now destruct sp). rewrite E1. clearbody c1. clear E1.
  assert (E : fold_left f ths (strip c1) = strip (fold_left f ths c1)).
  { revert c1. induction ths as [|kv ths IH]; intro c1; [reflexivity|]. cbn [fold_left]. rewrite <- IH. f_equal. unfold f. cbn [strip g_map]. destruct (mfind _ _ _); reflexivity. }
  rewrite E. split; reflexivity.
Qed.
Lemma strip_on {A} i c (f : thr -> option A) : g_on_thread i (strip c) f = g_on_thread i c (fun t => f (bare t)).
Proof. unfold g_on_thread. cbn [strip g_threads]. rewrite nth_error_map. destruct (nth_error (g_threads c) i) as [t|]; reflexivity. Qed.

Lemma existsb_bare (f : thr -> bool) l : (forall t, f (bare t) = f t) -> existsb f (map bare l) = existsb f l.
Proof. intro H. induction l as [|t l IH]; [reflexivity|]. cbn. now rewrite H, IH. Qed.
(** Everything but trace points does the same. *)
Lemma strip_step l c : match l with GTrace _ _ _ _ => False | _ => True end -> gstep l (strip c) = option_map strip (gstep l c).
Proof.
  intro NT. destruct l; try contradiction; cbn [gstep].
  - cbn [strip g_threads]. rewrite existsb_bare by reflexivity. destruct (existsb _ _); [reflexivity|]. cbn. unfold strip. cbn. now rewrite map_app.
  - rewrite strip_on. unfold g_on_thread. destruct (nth_error _ _) as [t|]; [|reflexivity]. destruct (t_live t); [|reflexivity]. cbn [option_map]. now rewrite strip_ptr.
  - rewrite strip_on. unfold g_on_thread. destruct (nth_error _ _) as [t|]; [|reflexivity]. destruct (t_live t); [|reflexivity]. cbn [option_map]. now rewrite (proj1 (strip_set i t b c)).
  - reflexivity.
  - rewrite strip_on. unfold g_on_thread. destruct (nth_error _ _) as [t|] eqn:Ht; [|reflexivity]. destruct (t_live t); [|reflexivity]. destruct is_process.
    + cbn [option_map]. change (store_process new_state (strip c)) with (strip (store_process new_state c)). now rewrite strip_scopes.
    + destruct (strip_set i t new_state c) as (E1 & E2). destruct (set_thread_state i (bare t) new_state (strip c)) as [o1 s1]. destruct (set_thread_state i t new_state c) as [o2 s2].
      cbn [fst snd] in *. subst. cbn [option_map]. now rewrite strip_scopes.
  - rewrite strip_on. unfold g_on_thread. destruct (nth_error _ _) as [t|]; [|reflexivity]. destruct (t_live t); [|reflexivity]. cbn [bare t_scopes]. destruct (t_scopes t) as [|[[] prev] r]; [reflexivity| |]; cbn [option_map].
    + change (store_process prev (strip c)) with (strip (store_process prev c)). now rewrite strip_scopes.
    + change {| t_tid := t_tid t; t_live := t_live t; t_cleanup := t_cleanup t; t_cache := t_cache t; t_scopes := (false, prev) :: r; t_events := [] |} with (bare t) || idtac.
      rewrite (proj1 (strip_set i t prev c)). now rewrite strip_scopes.
  - cbn [option_map]. now rewrite (proj1 (strip_remote r c)).
  - rewrite strip_on. unfold g_on_thread. destruct (nth_error _ _) as [t|]; [|reflexivity]. destruct (t_live t); [|reflexivity]. cbn [option_map]. unfold strip. cbn. now rewrite map_set.
  - cbn [strip g_threads]. rewrite nth_error_map. destruct (nth_error _ _) as [t|]; [|reflexivity]. cbn [option_map bare t_live t_cleanup t_tid]. destruct (t_live t || negb (t_cleanup t)); [reflexivity|].
    rewrite existsb_bare by reflexivity. destruct (existsb _ _); [reflexivity|]. cbn [option_map]. now rewrite (proj1 (strip_set i t b c)).
Qed.
(** ... and gives nothing to the buffers. *)
Definition kept (a b : list thr) : Prop := map t_events b = map t_events a.
Lemma kept_set i t t' l : nth_error l i = Some t -> t_events t' = t_events t -> kept l (set_nth i t' l).
Proof. unfold kept. intros H E. rewrite map_set, E. revert l H. induction i as [|i IH]; intros [|x l] H; try discriminate; cbn in *; [congruence|]. now rewrite IH. Qed.
Lemma kept_ptr i t c : nth_error (g_threads c) i = Some t -> kept (g_threads c) (g_threads (snd (thread_state_ptr i t c))).
Proof. intro H. unfold thread_state_ptr. destruct (mfind _ _ _); cbn; eapply kept_set; eauto. Qed.
Lemma kept_set_state i t b c : nth_error (g_threads c) i = Some t -> kept (g_threads c) (g_threads (snd (set_thread_state i t b c))).
Proof. intro H. unfold set_thread_state. pose proof (kept_ptr i t c H) as K. destruct (thread_state_ptr i t c) as [k c1]. exact K. Qed.
Lemma kept_scopes i l c : kept (g_threads c) (g_threads (upd_scopes i l c)).
Proof. unfold upd_scopes. destruct (nth_error (g_threads c) i) as [t|] eqn:E; [|reflexivity]. cbn. eapply kept_set; eauto. Qed.
Lemma kept_trans a b c : kept a b -> kept b c -> kept a c. Proof. unfold kept. congruence. Qed.
Lemma kept_remote r c : g_threads (fst (c_handle r c)) = g_threads c.
Proof.
  destruct r as [|sp p ths]; cbn [c_handle fst]; [reflexivity|].
  assert (E : forall c1, g_threads (fold_left (fun s kv => match mfind Nat.ltb (fst kv) (g_map s) with Some k => store_flag k (snd kv) s | None => s end) ths c1) = g_threads c1).
  { induction ths as [|kv ths IH]; intro c1; [reflexivity|]. cbn [fold_left]. rewrite IH. destruct (mfind _ _ _); reflexivity. }
  rewrite E. now destruct sp.
Qed.
Lemma kept_step l c c' : gstep l c = Some c' -> match l with GTrace _ _ _ _ => True | GStart _ => exists t, t_events t = [] /\ g_threads c' = g_threads c ++ [t] | _ => kept (g_threads c) (g_threads c') end.
Proof.
  intro H. destruct l; cbn [gstep] in H; auto.
  - destruct (existsb _ _); [discriminate|]. injection H as <-. eexists. split; [|reflexivity]. reflexivity.
  - unfold g_on_thread in H. destruct (nth_error _ _) as [t|] eqn:E; [|discriminate]. destruct (t_live t); [|discriminate]. injection H as <-. now apply kept_ptr.
  - unfold g_on_thread in H. destruct (nth_error _ _) as [t|] eqn:E; [|discriminate]. destruct (t_live t); [|discriminate]. injection H as <-. now apply kept_set_state.
  - injection H as <-. reflexivity.
  - unfold g_on_thread in H. destruct (nth_error _ _) as [t|] eqn:E; [|discriminate]. destruct (t_live t); [|discriminate]. destruct is_process.
    + injection H as <-. apply (kept_scopes _ _ (store_process new_state c)).
    + pose proof (kept_set_state i t new_state c E) as K. destruct (set_thread_state i t new_state c) as [o c1]. injection H as <-. eapply kept_trans; [exact K|apply kept_scopes].
  - unfold g_on_thread in H. destruct (nth_error _ _) as [t|] eqn:E; [|discriminate]. destruct (t_live t); [|discriminate]. destruct (t_scopes t) as [|[[] prev] r]; [discriminate| |]; injection H as <-.
    + apply (kept_scopes _ _ (store_process prev c)).
    + eapply kept_trans; [exact (kept_set_state i t prev c E)|apply kept_scopes].
  - injection H as <-. exact (f_equal (map t_events) (kept_remote r c)).
  - unfold g_on_thread in H. destruct (nth_error _ _) as [t|] eqn:E; [|discriminate]. destruct (t_live t); [|discriminate]. injection H as <-. cbn. eapply kept_set; eauto.
  - destruct (nth_error _ _) as [t|] eqn:E; [|discriminate]. destruct (_ || _); [discriminate|]. destruct (existsb _ _); [discriminate|]. injection H as <-. now apply kept_set_state.
Qed.

Definition paired (t : thr) (o : list lttng_event) : Prop := exists l, t_events t = map (fun e => event_of (fst e) (snd e)) l /\ o = map (fun e => lttng_event_of (fst e) (snd e)) l.
Lemma kept_paired a b o : kept a b -> Forall2 paired a o -> Forall2 paired b o.
Proof.
  unfold kept. intros K F. revert b K. induction F as [|t x a o P F IH]; intros [|u b] K; try discriminate; constructor; cbn in K; injection K as K1 K2.
  - unfold paired. now rewrite K1.
  - now apply IH.
Qed.
Lemma paired_set i t' l o x : Forall2 paired l o -> paired t' x -> Forall2 paired (set_nth i t' l) (set_nth i x o).
Proof. intros F P. revert i. induction F as [|t y l o Q F IH]; intros [|i]; cbn; constructor; auto. Qed.
Lemma paired_same i t t' l o : Forall2 paired l o -> nth_error l i = Some t -> t_events t' = t_events t -> Forall2 paired (set_nth i t' l) o.
Proof. intros F H E. eapply kept_paired; [|exact F]. eapply kept_set; eauto. Qed.
Lemma paired_nth i t l o : Forall2 paired l o -> nth_error l i = Some t -> paired t (nth i o []).
Proof. intros F. revert i. induction F as [|u y l o Q F IH]; intros [|i] H; try discriminate; cbn in *; [injection H as <-; exact Q|now apply IH]. Qed.

Lemma twin_make c s : lp_cfg s = strip c -> Forall2 paired (g_threads c) (lp_out s) -> twin c s.
Proof. intros E F. constructor; rewrite ?E; auto. Qed.

Lemma twin_step l c s : twin c s ->
  match gstep l c, lttng_step l s with Some c', Some s' => twin c' s' | None, None => True | _, _ => False end.
Proof.
  intro T. pose proof (twin_strip _ _ T) as E. pose proof (tw_out _ _ T) as F. change (Forall2 paired (g_threads c) (lp_out s)) in F.
  assert (NT : match l with GTrace _ _ _ _ => True | _ =>
    match gstep l c, lttng_step l s with Some c', Some s' => twin c' s' | None, None => True | _, _ => False end end).
  { destruct l as [tid|i p time room|i|i b|b|i ip b|i|r|i|i b]; auto; cbn [lttng_step]; rewrite E, strip_step by exact Logic.I;
    match goal with |- context [gstep ?L c] => pose proof (kept_step L c) as K; destruct (gstep L c) as [c'|] end; cbn [option_map]; auto; specialize (K _ eq_refl);
    apply twin_make; cbn [lp_cfg lp_out]; auto; try (eapply kept_paired; [exact K|exact F]).
    destruct K as (t & Et & ->). apply Forall2_app; [exact F|]. constructor; [|constructor]. exists []. auto. }
  destruct l as [tid|i p time room|i|i b|b|i ip b|i|r|i|i b]; try exact NT. clear NT.
  cbn [gstep lttng_step]. rewrite E, strip_on. unfold g_on_thread. destruct (nth_error (g_threads c) i) as [t|] eqn:Ht; [|exact Logic.I]. destruct (t_live t); [|exact Logic.I].
  cbn [bare t_cache].
  assert (X : exists k c1 t1, (match find (fun e => fst e =? fn_of p) (t_cache t) with Some e => (snd e, c) | None => thread_state_ptr i t c end) = (k, c1) /\
    (match find (fun e => fst e =? fn_of p) (t_cache t) with Some e => (snd e, strip c) | None => thread_state_ptr i (bare t) (strip c) end) = (k, strip c1) /\
    nth_error (g_threads c1) i = Some t1 /\ t_events t1 = t_events t /\ kept (g_threads c) (g_threads c1)).
  { destruct (find _ (t_cache t)) as [e|]; [exists (snd e), c, t; split; [reflexivity|]; split; [reflexivity|]; split; [exact Ht|]; split; [reflexivity|]; unfold kept; reflexivity|].
    rewrite strip_ptr. pose proof (kept_ptr i t c Ht) as K. destruct (thread_state_ptr i t c) as [k c1] eqn:P. cbn [fst snd] in *.
    destruct (nth_error (g_threads c1) i) as [t1|] eqn:H1.
    - exists k, c1, t1. split; [reflexivity|]. split; [reflexivity|]. split; [exact H1|]. split; [|exact K]. unfold kept in K.
      apply (f_equal (fun l => nth_error l i)) in K. rewrite !nth_error_map, H1, Ht in K. cbn in K. congruence.
    - exfalso. unfold kept in K. apply (f_equal (fun l => nth_error l i)) in K. rewrite !nth_error_map, H1, Ht in K. discriminate. }
  destruct X as (k & c1 & t1 & -> & X2 & H1 & E1 & K). unfold bare in X2 at 1. cbn [t_tid t_live t_cleanup t_cache t_scopes] in X2. unfold bare. cbn [t_tid t_live t_cleanup t_cache t_scopes].
  rewrite X2. rewrite H1. cbn [strip g_threads]. rewrite nth_error_map, H1. cbn [option_map].
  pose proof (kept_paired _ _ _ K F) as F1. cbn [bare t_cache t_tid t_live t_cleanup t_scopes t_events].
  change (g_process (strip c1)) with (g_process c1). change (flag k (strip c1)) with (flag k c1).
  destruct (g_process c1 && flag k c1 && room).
  - apply twin_make; cbn [lp_cfg lp_out]; [now rewrite strip_with|]. cbn [with_thr g_threads]. apply paired_set; [exact F1|].
    destruct (paired_nth _ _ _ _ F1 H1) as (l & L1 & ->). exists (l ++ [(p, time)]). cbn [t_events]. rewrite !map_app, L1. auto.
  - apply twin_make; cbn [lp_cfg lp_out]; [now rewrite strip_with|]. cbn [with_thr g_threads]. eapply paired_same; eauto.
Qed.
Lemma twin_run ls : forall c s, twin c s ->
  match grun ls c, lttng_run ls s with Some c', Some s' => twin c' s' | None, None => True | _, _ => False end.
Proof.
  induction ls as [|l ls IH]; intros c s T; [exact T|]. cbn [grun lttng_run]. pose proof (twin_step l _ _ T) as X.
  destruct (gstep l c), (lttng_step l s); try contradiction; auto. now apply IH.
Qed.
Lemma twin0 : twin cfg0 lprog0. Proof. constructor; try reflexivity. constructor. Qed.

Theorem same_program ls : match grun ls cfg0, lttng_run ls lprog0 with
  | Some c, Some s => same_switches c (lp_cfg s) /\ length (g_threads c) = length (lp_out s) /\
      forall i, i < length (g_threads c) -> exists l, recorded_natively c i l /\ recorded_by_lttng s i l
  | None, None => True
  | _, _ => False
  end.
Proof.
  pose proof (twin_run ls _ _ twin0) as T. destruct (grun ls cfg0) as [c|], (lttng_run ls lprog0) as [s|]; auto.
  pose proof (twin_strip _ _ T) as E. pose proof (tw_out _ _ T) as F. split; [|split].
  - rewrite E. split; [reflexivity|]. split; [reflexivity|]. split; [reflexivity|]. intro r. now rewrite (proj2 (strip_remote r c)).
  - clear - F. induction F; cbn; auto.
  - intros i L. destruct (nth_error (g_threads c) i) as [t|] eqn:Ht; [|apply nth_error_None in Ht; lia].
    assert (X : exists o, nth_error (lp_out s) i = Some o /\ paired t o).
    { clear - F Ht. revert i Ht. induction F as [|u y l o Q F IH]; intros [|i] H; try discriminate; cbn in *; [injection H as <-; eauto|now apply IH]. }
    destruct X as (o & Ho & l & L1 & L2). exists l. split; [exists t; auto|]. unfold recorded_by_lttng. now rewrite Ho, L2.
Qed.

(** ** Without trace points *)
Lemma nop_kept l c c' : nop_step l c = Some c' -> Forall (fun t => t_events t = []) (g_threads c) -> Forall (fun t => t_events t = []) (g_threads c').
Proof.
  intros H F. destruct l as [tid|i p time room|i|i b|b|i ip b|i|r|i|i b]; try (cbn [nop_step] in H; pose proof (kept_step _ _ _ H) as K;
    rewrite Forall_forall in *; intros t Ht; unfold kept in K; apply (in_map t_events) in Ht; rewrite K in Ht; apply in_map_iff in Ht; destruct Ht as (u & <- & Hu); now apply F).
  - pose proof (kept_step _ _ _ H) as (t & Et & ->). apply Forall_app. split; [exact F|constructor; auto].
  - cbn [nop_step] in H. unfold g_on_thread in H. destruct (nth_error _ _) as [t|]; [|discriminate]. destruct (t_live t); [|discriminate]. injection H as <-. exact F.
Qed.
Theorem nop_nothing ls : forall c c', nop_run ls c = Some c' -> Forall (fun t => t_events t = []) (g_threads c) -> Forall (fun t => t_events t = []) (g_threads c').
Proof.
  induction ls as [|l ls IH]; intros c c' H F; cbn [nop_run] in H; [injection H as <-; exact F|]. destruct (nop_step l c) as [c1|] eqn:E; [|discriminate].
  eapply IH; eauto. eapply nop_kept; eauto.
Qed.
