(** The lock is held when the interpreter is used. *)
From Coq Require Import List Arith Bool Lia.
Import ListNotations.
From Verif Require Import PyGil_model PyGil_spec.

Fixpoint good (has : bool) (ls : list op) : Prop :=
  match ls with
  | [] => has = false
  | Acq :: r => has = false /\ good true r
  | Rel :: r => has = true /\ good false r
  | Use :: r => has = true /\ good true r
  end.
Definition inv (s : state) : Prop := forall t, exists has, good has (todo s t) /\ (has = true <-> owner s = Some t).
Lemma next_same f t r : next f t r t = r. Proof. unfold next. now destruct (Nat.eq_dec t t). Qed.
Lemma next_other f t r u : u <> t -> next f t r u = f u. Proof. intros H. unfold next. now destruct (Nat.eq_dec u t). Qed.
Lemma inv_step t s s' : inv s -> step t s = Some s' -> inv s'.
Proof.
  intros I E. unfold step in E. destruct (todo s t) as [|o r] eqn:Et; [discriminate|]. destruct (I t) as (has & Hg & Ho). rewrite Et in Hg. destruct o; cbn [good] in Hg.
  - destruct (owner s) eqn:Eo; [discriminate|]. injection E as <-. destruct Hg as [-> Hg]. intros u. cbn [todo owner]. destruct (Nat.eq_dec u t) as [->|Hn].
    + rewrite next_same. exists true. tauto.
    + rewrite next_other by auto. destruct (I u) as (h & Hg' & Ho'). exists h. split; [exact Hg'|]. rewrite Ho', Eo. split; congruence.
  - injection E as <-. destruct Hg as [-> Hg]. intros u. cbn [todo owner]. destruct (Nat.eq_dec u t) as [->|Hn].
    + rewrite next_same. exists false. split; [exact Hg|]. split; congruence.
    + rewrite next_other by auto. destruct (I u) as (h & Hg' & Ho'). exists h. split; [exact Hg'|]. rewrite Ho', (proj1 Ho eq_refl). split; congruence.
  - injection E as <-. destruct Hg as [-> Hg]. intros u. cbn [todo owner]. destruct (Nat.eq_dec u t) as [->|Hn].
    + rewrite next_same. exists true. tauto.
    + rewrite next_other by auto. apply I.
Qed.
Lemma inv_run ts : forall s s', inv s -> run ts s = Some s' -> inv s'.
Proof.
  induction ts as [|t ts IH]; intros s s' I E; cbn [run] in E; [injection E as <-; exact I|]. destruct (step t s) as [s1|] eqn:E1; [|discriminate]. eauto using inv_step.
Qed.
Lemma inv_sound s : inv s -> sound s.
Proof. intros I t (r & E). destruct (I t) as (has & Hg & Ho). rewrite E in Hg. apply Ho. apply Hg. Qed.

(** [ok has c]: [c] uses the interpreter only with the lock. *)
Fixpoint ok (has : bool) (c : code) : Prop :=
  match c with
  | Nop => True
  | Seq a b | Either a b => ok has a /\ ok has b
  | Many a => ok has a
  | With a => ok true a
  | Without a => has = true -> ok false a
  | Touch => has = true
  end.
Lemma trace_good b c x : trace b c x -> ok b c -> forall k, good b k -> good b (x ++ k).
Proof.
  intros H. induction H as [b|b a c x y Ha IHa Hb IHb|b a c x Ha IHa|b a c x Hb IHb|b a|b a x y Ha IHa Hb IHb|a x Ha IHa|a x Ha IHa|a x Ha IHa|b]; cbn [ok app]; intros Ho k Hk.
  - exact Hk.
  - rewrite <- app_assoc. apply IHa; [apply Ho|]. apply IHb; [apply Ho|exact Hk].
  - apply IHa; [apply Ho|exact Hk].
  - apply IHb; [apply Ho|exact Hk].
  - exact Hk.
  - rewrite <- app_assoc. auto.
  - cbn [good]. split; [reflexivity|]. rewrite <- app_assoc. apply IHa; [exact Ho|]. cbn [app good]. auto.
  - auto.
  - cbn [good]. split; [reflexivity|]. rewrite <- app_assoc. apply IHa; [auto|]. cbn [app good]. auto.
  - cbn [good]. subst b. auto.
Qed.
(** Calls to Python are fine with and without the lock, if what runs in Python is fine with it. *)
Lemma calls_ok body : ok true body -> forall b, ok b (transport_thread body) /\ ok b (poll_thread body) /\ ok b (session_thread false body) /\ ok b (server_thread false body) /\ ok true (module_function false body).
Proof. intros H b. repeat split; try exact H; try exact I; try reflexivity. Qed.
Lemma python_ok d : ok true (python false d).
Proof.
  induction d as [|d IH]; cbn [python ok]; [repeat split|]. split; [reflexivity|]. split; [intros _; exact I|]. apply (calls_ok _ IH true).
Qed.
Lemma thread_ok d r : ok false (thread_code false false d r).
Proof. destruct r; cbn [thread_code]; [apply python_ok|..]; apply (calls_ok _ (python_ok d) false). Qed.
Theorem lock_held prog s : program false false prog -> reachable prog s -> sound s.
Proof.
  intros Hp (ts & E). apply inv_sound. apply (inv_run ts (begin prog)); [|exact E]. intros t. cbn [todo owner begin]. exists false. split; [|split; congruence].
  destruct (prog t) eqn:Et; [reflexivity|]. rewrite <- Et. destruct (Hp t) as (d & r & Hd); [congruence|]. rewrite <- (app_nil_r (prog t)). apply (trace_good _ _ _ Hd); [apply thread_ok|reflexivity].
Qed.
Lemma sound_clash s : sound s -> ~ clash s.
Proof. intros H (t & u & Hn & Ht & Hu). apply H in Ht, Hu. congruence. Qed.
Theorem no_clash prog s : program false false prog -> reachable prog s -> ~ clash s.
Proof. intros Hp Hr. eapply sound_clash, lock_held; eauto. Qed.

(** The lock is taken once, given back, and given back at the end; whatever is used in between. *)
Fixpoint fair (has : bool) (ls : list op) : Prop :=
  match ls with
  | [] => has = false
  | Acq :: r => has = false /\ fair true r
  | Rel :: r => has = true /\ fair false r
  | Use :: r => fair has r
  end.
Definition finv (s : state) : Prop := forall t, exists has, fair has (todo s t) /\ (has = true <-> owner s = Some t).
Lemma finv_step t s s' : finv s -> step t s = Some s' -> finv s'.
Proof.
  intros I E. unfold step in E. destruct (todo s t) as [|o r] eqn:Et; [discriminate|]. destruct (I t) as (has & Hg & Ho). rewrite Et in Hg. destruct o; cbn [fair] in Hg.
  - destruct (owner s) eqn:Eo; [discriminate|]. injection E as <-. destruct Hg as [-> Hg]. intros u. cbn [todo owner]. destruct (Nat.eq_dec u t) as [->|Hn].
    + rewrite next_same. exists true. tauto.
    + rewrite next_other by auto. destruct (I u) as (h & Hg' & Ho'). exists h. split; [exact Hg'|]. rewrite Ho', Eo. split; congruence.
  - injection E as <-. destruct Hg as [-> Hg]. intros u. cbn [todo owner]. destruct (Nat.eq_dec u t) as [->|Hn].
    + rewrite next_same. exists false. split; [exact Hg|]. split; congruence.
    + rewrite next_other by auto. destruct (I u) as (h & Hg' & Ho'). exists h. split; [exact Hg'|]. rewrite Ho', (proj1 Ho eq_refl). split; congruence.
  - injection E as <-. intros u. cbn [todo owner]. destruct (Nat.eq_dec u t) as [->|Hn].
    + rewrite next_same. exists has. tauto.
    + rewrite next_other by auto. apply I.
Qed.
Lemma finv_run ts : forall s s', finv s -> run ts s = Some s' -> finv s'.
Proof.
  induction ts as [|t ts IH]; intros s s' I E; cbn [run] in E; [injection E as <-; exact I|]. destruct (step t s) as [s1|] eqn:E1; [|discriminate]. eauto using finv_step.
Qed.
Lemma trace_fair b c x : trace b c x -> forall k, fair b k -> fair b (x ++ k).
Proof.
  intros H. induction H as [b|b a c x y Ha IHa Hb IHb|b a c x Ha IHa|b a c x Hb IHb|b a|b a x y Ha IHa Hb IHb|a x Ha IHa|a x Ha IHa|a x Ha IHa|b]; cbn [app]; intros k Hk; auto.
  - rewrite <- app_assoc. auto.
  - rewrite <- app_assoc. auto.
  - cbn [fair]. split; [reflexivity|]. rewrite <- app_assoc. apply IHa. cbn [app fair]. auto.
  - cbn [fair]. split; [reflexivity|]. rewrite <- app_assoc. apply IHa. cbn [app fair]. auto.
Qed.
Theorem goes_on waits logger prog s : program waits logger prog -> reachable prog s -> forall t, todo s t <> [] -> exists u s', step u s = Some s'.
Proof.
  intros Hp (ts & E) t Ht. assert (I : finv s).
  { apply (finv_run ts (begin prog)); [|exact E]. intros u. cbn [todo owner begin]. exists false. split; [|split; congruence].
    destruct (prog u) eqn:Et; [reflexivity|]. rewrite <- Et. destruct (Hp u) as (d & r & Hd); [congruence|]. rewrite <- (app_nil_r (prog u)). now apply (trace_fair _ _ _ Hd). }
  destruct (owner s) as [u|] eqn:Eo.
  - exists u. destruct (I u) as (has & Hg & Ho). assert (has = true) as -> by (apply Ho; exact Eo). unfold step. destruct (todo s u) as [|[| |] r]; cbn [fair] in Hg; [discriminate|destruct Hg; discriminate|eauto|eauto].
  - exists t. unfold step. destruct (todo s t) as [|[| |] r]; [congruence|rewrite Eo; eauto|eauto|eauto].
Qed.
Lemma gil_sound prog s : program false false prog -> reachable prog s -> sound s /\ ~ clash s.
Proof. intros Hp Hr. split; [eapply lock_held|eapply no_clash]; eauto. Qed.
