(** Proofs about a traced process that forks (C98). *)
From Coq Require Import List Arith Bool Lia.
Import ListNotations.
From Verif Require Import Fork_model Fork_spec.

Definition hand (p : proc) : buffers := match p_hand p with Some b => b | None => [] end.
Definition all (p : proc) : buffers := p_bufs p ++ hand p.
Definition inb (b : buffers) (t : nat) (e : event) : Prop := exists l, In (t, l) b /\ In e l.
Fixpoint count (n : nat) (l : list event) : nat := match l with [] => 0 | e :: r => (if Nat.eqb (e_num e) n then 1 else 0) + count n r end.
Fixpoint cnt (n : nat) (b : buffers) : nat := match b with [] => 0 | (t, l) :: r => count n l + cnt n r end.

Lemma count_app n a b : count n (a ++ b) = count n a + count n b.
Proof. induction a as [|e a IH]; cbn; [reflexivity|lia]. Qed.
Lemma cnt_app n a b : cnt n (a ++ b) = cnt n a + cnt n b.
Proof. induction a as [|[t l] a IH]; cbn; [reflexivity|lia]. Qed.
Lemma cnt_push n t e b : cnt n (push t e b) = cnt n b + (if Nat.eqb (e_num e) n then 1 else 0).
Proof.
  induction b as [|[t0 l] b IH]; cbn [push].
  - cbn. lia.
  - destruct (Nat.eqb t0 t); cbn [cnt]; [rewrite count_app; cbn; lia|rewrite IH; lia].
Qed.
Lemma cnt_split n ks b : cnt n (rest ks b) + cnt n (taken ks b) = cnt n b.
Proof.
  revert ks. induction b as [|[t l] b IH]; intros ks; [reflexivity|].
  cbn [rest taken cnt]. specialize (IH (tl ks)). pose proof (count_app n (firstn (hd 0 ks) l) (skipn (hd 0 ks) l)) as H. rewrite firstn_skipn in H. lia.
Qed.
Lemma inb_app a b t e : inb (a ++ b) t e <-> inb a t e \/ inb b t e.
Proof.
  unfold inb. split.
  - intros (l & A & B). apply in_app_iff in A. destruct A as [A|A]; [left|right]; exists l; auto.
  - intros [(l & A & B)|(l & A & B)]; exists l; split; auto; apply in_app_iff; auto.
Qed.
Lemma inb_push t e b t' e' : inb (push t e b) t' e' -> inb b t' e' \/ (t' = t /\ e' = e).
Proof.
  induction b as [|[t0 l] b IH]; cbn [push]; intros (l' & A & B).
  - destruct A as [A|[]]. injection A as <- <-. destruct B as [<-|[]]. now right.
  - destruct (Nat.eqb t0 t) eqn:E.
    + apply Nat.eqb_eq in E. subst t0. destruct A as [A|A].
      * injection A as <- <-. apply in_app_iff in B. destruct B as [B|[<-|[]]]; [left; exists l; split; [left; reflexivity|exact B]|right; split; reflexivity].
      * left. exists l'. split; [right; exact A|exact B].
    + destruct A as [A|A].
      * injection A as <- <-. left. exists l. split; [left; reflexivity|exact B].
      * destruct (IH (ex_intro _ l' (conj A B))) as [(l2 & C & D)|C]; [left; exists l2; split; [right; exact C|exact D]|right; exact C].
Qed.
Lemma inb_rest ks b t e : inb (rest ks b) t e -> inb b t e.
Proof.
  revert ks. induction b as [|[t0 l] b IH]; intros ks (l' & A & B); [destruct A|].
  cbn [rest] in A. destruct A as [A|A].
  - injection A as <- <-. exists l. split; [left; reflexivity|]. rewrite <- (firstn_skipn (hd 0 ks) l). apply in_app_iff. now right.
  - destruct (IH (tl ks) (ex_intro _ l' (conj A B))) as (l2 & C & D). exists l2. split; [right; exact C|exact D].
Qed.
Lemma inb_taken ks b t e : inb (taken ks b) t e -> inb b t e.
Proof.
  revert ks. induction b as [|[t0 l] b IH]; intros ks (l' & A & B); [destruct A|].
  cbn [taken] in A. destruct A as [A|A].
  - injection A as <- <-. exists l. split; [left; reflexivity|]. rewrite <- (firstn_skipn (hd 0 ks) l). apply in_app_iff. now left.
  - destruct (IH (tl ks) (ex_intro _ l' (conj A B))) as (l2 & C & D). exists l2. split; [right; exact C|exact D].
Qed.
Lemma in_shown pid b q t e : In (q, t, e) (shown pid b) <-> q = pid /\ inb b t e.
Proof.
  unfold shown. rewrite in_flat_map. split.
  - intros ([t0 l] & A & B). cbn [fst snd] in B. apply in_map_iff in B. destruct B as (e0 & C & D). injection C as <- <- <-. split; [reflexivity|]. exists l. now split.
  - intros [-> (l & A & B)]. exists (t, l). split; [exact A|]. cbn [fst snd]. apply in_map_iff. exists e. now split.
Qed.
Lemma times_of_app pid n a b : times_of pid n (a ++ b) = times_of pid n a + times_of pid n b.
Proof. unfold times_of. rewrite filter_app, app_length. reflexivity. Qed.
Lemma times_of_shown pid q n b : times_of q n (shown pid b) = if Nat.eqb q pid then cnt n b else 0.
Proof.
  unfold shown. induction b as [|[t l] b IH]; [cbn; destruct (Nat.eqb q pid); reflexivity|].
  cbn [flat_map fst snd]. rewrite times_of_app, IH. clear IH.
  assert (H : times_of q n (map (fun e => (pid, t, e)) l) = if Nat.eqb q pid then count n l else 0).
  { unfold times_of. induction l as [|e l IH]; [cbn; destruct (Nat.eqb q pid); reflexivity|]. cbn [map filter fst snd].
    rewrite (Nat.eqb_sym pid q). destruct (Nat.eqb q pid) eqn:E; cbn [andb count].
    - destruct (Nat.eqb (e_num e) n); cbn [length]; rewrite (Nat.eqb_sym pid q), E in IH || idtac; lia.
    - exact IH. }
  rewrite H. destruct (Nat.eqb q pid); cbn [cnt]; lia.
Qed.
Lemma mem_in n l : mem n l = true <-> In n l.
Proof.
  unfold mem. rewrite existsb_exists. split.
  - intros (x & A & B). apply Nat.eqb_eq in B. now subst x.
  - intros A. exists n. split; [exact A|apply Nat.eqb_refl].
Qed.
Lemma times_of_0 pid n l : (forall x, In x l -> fst (fst x) <> pid) -> times_of pid n l = 0.
Proof.
  unfold times_of. induction l as [|x l IH]; intros H; [reflexivity|]. cbn [filter].
  assert (E : Nat.eqb (fst (fst x)) pid = false) by (apply Nat.eqb_neq; apply H; left; reflexivity).
  rewrite E. cbn [andb]. apply IH. intros y Y. apply H. right. exact Y.
Qed.
Lemma times_of_fresh pid n l : (forall x, In x l -> e_num (snd x) <> n) -> times_of pid n l = 0.
Proof.
  unfold times_of. induction l as [|x l IH]; intros H; [reflexivity|]. cbn [filter].
  assert (E : Nat.eqb (e_num (snd x)) n = false) by (apply Nat.eqb_neq; apply H; left; reflexivity).
  rewrite E, andb_false_r. apply IH. intros y Y. apply H. right. exact Y.
Qed.
Lemma cnt_fresh n b : (forall t e, inb b t e -> e_num e <> n) -> cnt n b = 0.
Proof.
  induction b as [|[t l] b IH]; intros H; [reflexivity|]. cbn [cnt]. rewrite IH.
  - assert (G : forall e, In e l -> e_num e <> n) by (intros e E; apply (H t e); exists l; split; [left; reflexivity|exact E]).
    clear H IH. induction l as [|e l IHl]; [reflexivity|]. cbn [count].
    replace (Nat.eqb (e_num e) n) with false by (symmetry; apply Nat.eqb_neq; apply G; left; reflexivity).
    cbn. apply IHl. intros e' E'. apply G. right. exact E'.
  - intros t' e' (l' & A & B). apply (H t' e'). exists l'. split; [right; exact A|exact B].
Qed.

(** What a step does to the events. *)
Inductive view (a : label) (w : world) : world -> Prop :=
| V_move q p p' : w_procs w q = Some p -> (forall t e, inb (all p') t e -> inb (all p) t e) -> (forall n, cnt n (all p') <= cnt n (all p)) ->
    view a w (put q (Some p') w)
| V_new q p' : ~ In q (w_used w) -> all p' = [] ->
    view a w (put q (Some p') {| w_procs := w_procs w; w_used := q :: w_used w; w_next := w_next w; w_forks := w_forks w; w_shown := w_shown w |})
| V_end q p : w_procs w q = Some p -> view a w (put q None w)
| V_trace q tid p p' : w_procs w q = Some p ->
    (forall t e, inb (all p') t e -> inb (all p) t e \/ (t = tid /\ e = {| e_pid := q; e_tid := tid; e_num := w_next w |})) ->
    (forall n, cnt n (all p') <= cnt n (all p) + (if Nat.eqb (w_next w) n then 1 else 0)) ->
    view a w (put q (Some p') {| w_procs := w_procs w; w_used := w_used w; w_next := S (w_next w); w_forks := w_forks w; w_shown := w_shown w |})
| V_send q p p' b : w_procs w q = Some p -> p_hand p = Some b -> all p' = p_bufs p ->
    view a w (put q (Some p') {| w_procs := w_procs w; w_used := w_used w; w_next := w_next w; w_forks := w_forks w; w_shown := w_shown w ++ shown q b |})
| V_fork q tid c p p' : a = Fork q tid c -> w_procs w q = Some p -> ~ In c (w_used w) -> all p' = p_bufs p ->
    view a w (put c (Some p') {| w_procs := w_procs w; w_used := c :: w_used w; w_next := w_next w; w_forks := (q, c) :: w_forks w; w_shown := w_shown w |}).

Lemma step_view a w w' : step a w = Some w' -> view a w w'.
Proof.
  destruct a as [pid tid|pid tid|pid tid|pid|pid|pid ks|pid|pid tid c|pid tid|pid]; intros H; cbn [step] in H.
  - destruct (mem pid (w_used w)) eqn:E; [discriminate H|]. injection H as <-. apply V_new; [|reflexivity].
    intros A. apply mem_in in A. congruence.
  - destruct (w_procs w pid) as [p|] eqn:P; [|discriminate H]. destruct (mem tid (p_threads p)); [discriminate H|]. injection H as <-.
    eapply V_move; [exact P| |]; intros; auto.
  - destruct (w_procs w pid) as [p|] eqn:P; [|discriminate H]. destruct (runs tid p); [|discriminate H].
    assert (T : forall p', p_bufs p' = push tid {| e_pid := pid; e_tid := tid; e_num := w_next w |} (p_bufs p) -> hand p' = hand p ->
      view (Trace pid tid) w (put pid (Some p') {| w_procs := w_procs w; w_used := w_used w; w_next := S (w_next w); w_forks := w_forks w; w_shown := w_shown w |})).
    { intros p' E1 E2. eapply (V_trace _ _ pid tid p); [exact P| |].
      - intros t e A. unfold all in A |- *. rewrite E1, E2 in A. apply inb_app in A. destruct A as [A|A].
        + apply inb_push in A. destruct A as [A|A]; [left; apply inb_app; left; exact A|right; exact A].
        + left. apply inb_app. right. exact A.
      - intros n. unfold all. rewrite E1, E2, !cnt_app, cnt_push. cbn [e_num]. lia. }
    destruct (has tid (p_bufs p)); [injection H as <-; apply T; reflexivity|].
    destruct (p_lost p); [injection H as <-; eapply V_move; [exact P| |]; intros; auto|].
    destruct (p_locked p); [discriminate H|]. injection H as <-. apply T; reflexivity.
  - destruct (w_procs w pid) as [p|] eqn:P; [|discriminate H]. destruct (p_hand p) eqn:Q; [discriminate H|]. injection H as <-.
    eapply V_move; [exact P| |]; intros; unfold all, hand in *; cbn [p_bufs p_hand] in *; rewrite Q in *; auto.
  - destruct (w_procs w pid) as [p|] eqn:P; [|discriminate H]. destruct (p_hand p) as [[|x r]|] eqn:Q; [|discriminate H|discriminate H].
    destruct (p_locked p); [discriminate H|]. injection H as <-.
    eapply V_move; [exact P| |]; intros; unfold all, hand in *; cbn [p_bufs p_hand] in *; rewrite Q in *; auto.
  - destruct (w_procs w pid) as [p|] eqn:P; [|discriminate H]. destruct (p_hand p) as [[|x r]|] eqn:Q; [|discriminate H|discriminate H].
    destruct (p_locked p); [|discriminate H]. injection H as <-.
    eapply V_move; [exact P| |].
    + intros t e A. unfold all, hand in A |- *. cbn [p_bufs p_hand] in A. rewrite Q, app_nil_r. apply inb_app in A.
      destruct A as [A|A]; [exact (inb_rest _ _ _ _ A)|exact (inb_taken _ _ _ _ A)].
    + intros n. unfold all, hand. cbn [p_bufs p_hand]. rewrite Q, app_nil_r, cnt_app, cnt_split. lia.
  - destruct (w_procs w pid) as [p|] eqn:P; [|discriminate H]. destruct (p_hand p) as [[|x r]|] eqn:Q; [discriminate H| |discriminate H].
    remember (x :: r) as b eqn:Eb in *. injection H as <-. eapply V_send; [exact P|exact Q|]. unfold all, hand. cbn [p_bufs p_hand]. apply app_nil_r.
  - destruct (w_procs w pid) as [p|] eqn:P; [|discriminate H]. destruct (runs tid p && negb (mem c (w_used w))) eqn:E; [|discriminate H]. injection H as <-.
    apply andb_true_iff in E. destruct E as [_ E]. apply negb_true_iff in E.
    eapply V_fork; [reflexivity|exact P| |].
    + intros A. apply mem_in in A. congruence.
    + unfold all, hand. cbn [p_bufs p_hand]. apply app_nil_r.
  - destruct (w_procs w pid) as [p|] eqn:P; [|discriminate H]. destruct (runs tid p); [|discriminate H].
    destruct (p_ghost p); [injection H as <-; eapply V_move; [exact P| |]; intros; auto|].
    destruct (p_hand p) as [[|x r]|] eqn:Q; [|discriminate H|discriminate H]. destruct (p_locked p); [discriminate H|]. injection H as <-.
    eapply V_move; [exact P| |]; intros; unfold all, hand in *; cbn [p_bufs p_hand] in *; rewrite Q in *; auto.
  - destruct (w_procs w pid) as [p|] eqn:P; [|discriminate H]. injection H as <-. eapply V_end. exact P.
Qed.

Lemma anc_more (w w' : list (nat * nat)) a b : (forall x, In x w -> In x w') -> ancestor w a b -> ancestor w' a b.
Proof. intros F H. induction H as [p|p q r _ IH H]; [apply a_self|exact (a_fork _ _ _ _ IH (F _ H))]. Qed.

Record inv (w : world) : Prop := {
  i_used : forall q p, w_procs w q = Some p -> In q (w_used w);
  i_held : forall q p t e, w_procs w q = Some p -> inb (all p) t e -> e_tid e = t /\ ancestor (w_forks w) (e_pid e) q /\ e_num e < w_next w;
  i_once : forall q p n, w_procs w q = Some p -> cnt n (all p) + times_of q n (w_shown w) <= 1;
  i_seen : forall q n, times_of q n (w_shown w) <= 1;
  i_shown : forall q t e, In (q, t, e) (w_shown w) -> In q (w_used w) /\ e_tid e = t /\ ancestor (w_forks w) (e_pid e) q /\ e_num e < w_next w }.

Lemma inv0 : inv world0.
Proof.
  split; cbn; try discriminate; try contradiction; try (intros; lia).
Qed.
Lemma put_some q x w q' p : w_procs (put q x w) q' = Some p -> (q' = q /\ x = Some p) \/ (q' <> q /\ w_procs w q' = Some p).
Proof.
  cbn [put w_procs]. destruct (Nat.eqb q' q) eqn:E; intros H.
  - left. apply Nat.eqb_eq in E. now split.
  - right. apply Nat.eqb_neq in E. now split.
Qed.
Lemma inb_nil t e : ~ inb [] t e.
Proof. intros (l & [] & _). Qed.

Lemma inv_step a w w' : step a w = Some w' -> inv w -> inv w'.
Proof.
  intros H [U Hd O S1 Sh]. apply step_view in H.
  assert (Fr : forall q n, ~ In q (w_used w) -> times_of q n (w_shown w) = 0).
  { intros q n N. apply times_of_0. intros [[q' t] e] X E. cbn [fst] in E. subst q'. apply N. exact (proj1 (Sh _ _ _ X)). }
  destruct H as [q p p' P H1 H2|q p' N H1|q p P|q tid p p' P H1 H2|q p p' b P B H1|q tid c p p' A P N H1].
  - split.
    + intros q' x X. apply put_some in X. destruct X as [[-> X]|[_ X]]; [exact (U _ _ P)|exact (U _ _ X)].
    + intros q' x t e X Y. apply put_some in X. destruct X as [[-> X]|[_ X]]; [injection X as <-; exact (Hd _ _ _ _ P (H1 _ _ Y))|exact (Hd _ _ _ _ X Y)].
    + intros q' x n X. apply put_some in X. destruct X as [[-> X]|[_ X]]; [injection X as <-; specialize (H2 n); pose proof (O _ _ n P); cbn [put w_shown]; lia|exact (O _ _ n X)].
    + exact S1.
    + exact Sh.
  - split.
    + intros q' x X. apply put_some in X. destruct X as [[-> X]|[_ X]]; [left; reflexivity|right; exact (U _ _ X)].
    + intros q' x t e X Y. apply put_some in X. destruct X as [[-> X]|[_ X]]; [injection X as <-; rewrite H1 in Y; destruct (inb_nil _ _ Y)|exact (Hd _ _ _ _ X Y)].
    + intros q' x n X. apply put_some in X. destruct X as [[-> X]|[_ X]]; [injection X as <-; rewrite H1; cbn [put w_shown cnt]; rewrite (Fr _ n N); lia|exact (O _ _ n X)].
    + exact S1.
    + intros q' t e X. destruct (Sh _ _ _ X) as (X1 & X2). split; [right; exact X1|exact X2].
  - split.
    + intros q' x X. apply put_some in X. destruct X as [[-> X]|[_ X]]; [discriminate X|exact (U _ _ X)].
    + intros q' x t e X Y. apply put_some in X. destruct X as [[-> X]|[_ X]]; [discriminate X|exact (Hd _ _ _ _ X Y)].
    + intros q' x n X. apply put_some in X. destruct X as [[-> X]|[_ X]]; [discriminate X|exact (O _ _ n X)].
    + exact S1.
    + exact Sh.
  - assert (Nx : forall q', times_of q' (w_next w) (w_shown w) = 0).
    { intros q'. apply times_of_fresh. intros [[q2 t] e] X E. cbn [snd] in E. pose proof (proj2 (proj2 (proj2 (Sh _ _ _ X)))). lia. }
    assert (Cx : forall q' p0, w_procs w q' = Some p0 -> cnt (w_next w) (all p0) = 0).
    { intros q' p0 X. apply cnt_fresh. intros t e Y E. pose proof (proj2 (proj2 (Hd _ _ _ _ X Y))). lia. }
    split.
    + intros q' x X. apply put_some in X. destruct X as [[-> X]|[_ X]]; [exact (U _ _ P)|exact (U _ _ X)].
    + intros q' x t e X Y. apply put_some in X. destruct X as [[-> X]|[_ X]].
      * injection X as <-. destruct (H1 _ _ Y) as [Z|[-> ->]].
        -- destruct (Hd _ _ _ _ P Z) as (Z1 & Z2 & Z3). split; [exact Z1|]. split; [exact Z2|]. cbn [put w_next]. lia.
        -- cbn [e_tid e_pid e_num put w_next]. split; [reflexivity|]. split; [apply a_self|lia].
      * destruct (Hd _ _ _ _ X Y) as (Z1 & Z2 & Z3). split; [exact Z1|]. split; [exact Z2|]. cbn [put w_next]. lia.
    + intros q' x n X. apply put_some in X. destruct X as [[-> X]|[_ X]].
      * injection X as <-. specialize (H2 n). cbn [put w_shown]. destruct (Nat.eqb (w_next w) n) eqn:E.
        -- apply Nat.eqb_eq in E. subst n. rewrite (Cx _ _ P) in H2. rewrite Nx. lia.
        -- pose proof (O _ _ n P). lia.
      * exact (O _ _ n X).
    + exact S1.
    + intros q' t e X. destruct (Sh _ _ _ X) as (X1 & X2 & X3 & X4). split; [exact X1|]. split; [exact X2|]. split; [exact X3|]. cbn [put w_next]. lia.
  - assert (Cb : forall n, cnt n (all p) = cnt n (p_bufs p) + cnt n b) by (intros n; unfold all, hand; rewrite B; apply cnt_app).
    assert (Ib : forall t e, inb b t e -> inb (all p) t e) by (intros t e X; unfold all, hand; rewrite B; apply inb_app; right; exact X).
    split.
    + intros q' x X. apply put_some in X. destruct X as [[-> X]|[_ X]]; [exact (U _ _ P)|exact (U _ _ X)].
    + intros q' x t e X Y. apply put_some in X. destruct X as [[-> X]|[_ X]].
      * injection X as <-. rewrite H1 in Y. apply (Hd _ _ _ _ P). unfold all. apply inb_app. left. exact Y.
      * exact (Hd _ _ _ _ X Y).
    + intros q' x n X. cbn [put w_shown]. rewrite times_of_app, times_of_shown. apply put_some in X. destruct X as [[-> X]|[Ne X]].
      * injection X as <-. rewrite H1, Nat.eqb_refl. pose proof (O _ _ n P). rewrite Cb in H. lia.
      * apply Nat.eqb_neq in Ne. rewrite Ne. pose proof (O _ _ n X). cbn [w_procs] in X. lia.
    + intros q' n. cbn [put w_shown]. rewrite times_of_app, times_of_shown. destruct (Nat.eqb q' q) eqn:E.
      * apply Nat.eqb_eq in E. subst q'. pose proof (O _ _ n P). rewrite Cb in H. lia.
      * specialize (S1 q' n). lia.
    + intros q' t e X. cbn [put w_shown w_used w_next] in X |- *. apply in_app_iff in X. destruct X as [X|X]; [exact (Sh _ _ _ X)|].
      apply in_shown in X. destruct X as [-> X]. split; [exact (U _ _ P)|]. exact (Hd _ _ _ _ P (Ib _ _ X)).
  - assert (Ne : q <> c) by (intros ->; apply N; exact (U _ _ P)).
    assert (M : forall a0 b0, ancestor (w_forks w) a0 b0 -> ancestor ((q, c) :: w_forks w) a0 b0).
    { intros a0 b0. apply anc_more. intros x X. right. exact X. }
    split.
    + intros q' x X. apply put_some in X. destruct X as [[-> X]|[_ X]]; [left; reflexivity|right; exact (U _ _ X)].
    + intros q' x t e X Y. apply put_some in X. destruct X as [[-> X]|[_ X]].
      * injection X as <-. rewrite H1 in Y. assert (Z : inb (all p) t e) by (unfold all; apply inb_app; left; exact Y).
        destruct (Hd _ _ _ _ P Z) as (Z1 & Z2 & Z3). split; [exact Z1|]. split; [|exact Z3].
        apply (a_fork _ _ q); [exact (M _ _ Z2)|]. left. reflexivity.
      * destruct (Hd _ _ _ _ X Y) as (Z1 & Z2 & Z3). split; [exact Z1|]. split; [exact (M _ _ Z2)|exact Z3].
    + intros q' x n X. cbn [put w_shown]. apply put_some in X. destruct X as [[-> X]|[_ X]].
      * injection X as <-. rewrite H1, (Fr _ n N). pose proof (O _ _ n P) as Z. unfold all in Z. rewrite cnt_app in Z. lia.
      * exact (O _ _ n X).
    + exact S1.
    + intros q' t e X. destruct (Sh _ _ _ X) as (X1 & X2 & X3 & X4). split; [right; exact X1|]. split; [exact X2|]. split; [exact (M _ _ X3)|exact X4].
Qed.
Lemma inv_run h w w' : run h w = Some w' -> inv w -> inv w'.
Proof.
  revert w. induction h as [|a h IH]; intros w H I; cbn [run] in H; [injection H as <-; exact I|].
  destruct (step a w) as [w1|] eqn:E; [|discriminate H]. exact (IH _ H (inv_step _ _ _ E I)).
Qed.

Lemma sound h w : run h world0 = Some w ->
  (forall pid tid e, In (pid, tid, e) (w_shown w) -> e_tid e = tid /\ ancestor (w_forks w) (e_pid e) pid) /\
  (forall pid n, times_of pid n (w_shown w) <= 1).
Proof.
  intros H. apply inv_run in H; [|exact inv0]. destruct H as [_ _ _ S1 Sh]. split; [|exact S1].
  intros pid tid e X. destruct (Sh _ _ _ X) as (_ & A & B & _). now split.
Qed.

(** Forks are made while nothing waits: events stay where they are made. *)
Definition own (w : world) (m : nat -> nat) : Prop :=
  (forall q p t e, w_procs w q = Some p -> inb (all p) t e -> e_pid e = q /\ m (e_num e) = q) /\
  (forall q t e, In (q, t, e) (w_shown w) -> e_pid e = q /\ m (e_num e) = q).
Lemma own_step a w w' m : step a w = Some w' -> inv w -> own w m ->
  (forall q tid c p, a = Fork q tid c -> w_procs w q = Some p -> waiting p = []) -> exists m', own w' m'.
Proof.
  intros H [U Hd _ _ Sh] [O1 O2] T. apply step_view in H.
  destruct H as [q p p' P H1 H2|q p' N H1|q p P|q tid p p' P H1 H2|q p p' b P B H1|q tid c p p' A P N H1].
  - exists m. split; [|exact O2].
    intros q' x t e X Y. apply put_some in X. destruct X as [[-> X]|[_ X]]; [injection X as <-; exact (O1 _ _ _ _ P (H1 _ _ Y))|exact (O1 _ _ _ _ X Y)].
  - exists m. split; [|exact O2].
    intros q' x t e X Y. apply put_some in X. destruct X as [[-> X]|[_ X]]; [injection X as <-; rewrite H1 in Y; destruct (inb_nil _ _ Y)|exact (O1 _ _ _ _ X Y)].
  - exists m. split; [|exact O2].
    intros q' x t e X Y. apply put_some in X. destruct X as [[-> X]|[_ X]]; [discriminate X|exact (O1 _ _ _ _ X Y)].
  - exists (fun n => if Nat.eqb n (w_next w) then q else m n).
    assert (L : forall n, n < w_next w -> Nat.eqb n (w_next w) = false) by (intros n; intros; apply Nat.eqb_neq; lia).
    split.
    + intros q' x t e X Y. apply put_some in X. destruct X as [[-> X]|[_ X]].
      * injection X as <-. destruct (H1 _ _ Y) as [Z|[-> ->]].
        -- rewrite (L _ (proj2 (proj2 (Hd _ _ _ _ P Z)))). exact (O1 _ _ _ _ P Z).
        -- cbn [e_pid e_num]. rewrite Nat.eqb_refl. now split.
      * rewrite (L _ (proj2 (proj2 (Hd _ _ _ _ X Y)))). exact (O1 _ _ _ _ X Y).
    + intros q' t e X. cbn [put w_shown] in X. rewrite (L _ (proj2 (proj2 (proj2 (Sh _ _ _ X))))). exact (O2 _ _ _ X).
  - exists m. split.
    + intros q' x t e X Y. apply put_some in X. destruct X as [[-> X]|[_ X]].
      * injection X as <-. rewrite H1 in Y. apply (O1 _ _ _ _ P (proj2 (inb_app _ _ _ _) (or_introl Y))).
      * exact (O1 _ _ _ _ X Y).
    + intros q' t e X. cbn [put w_shown] in X. apply in_app_iff in X. destruct X as [X|X]; [exact (O2 _ _ _ X)|].
      apply in_shown in X. destruct X as [-> X]. refine (O1 q p t e P _). unfold all, hand. rewrite B. apply inb_app. right. exact X.
  - exists m. split; [|exact O2].
    intros q' x t e X Y. apply put_some in X. destruct X as [[-> X]|[_ X]]; [|exact (O1 _ _ _ _ X Y)].
    injection X as <-. rewrite H1 in Y. specialize (T _ _ _ _ A P). destruct Y as (l & Y1 & Y2). exfalso.
    assert (Z : In e (waiting p)) by (unfold waiting; apply in_flat_map; exists (t, l); split; [exact Y1|exact Y2]).
    rewrite T in Z. destruct Z.
Qed.
Lemma own_run h w w' m : run h w = Some w' -> tidy h w -> inv w -> own w m -> exists m', own w' m'.
Proof.
  revert w m. induction h as [|a h IH]; intros w m H T I O; cbn [run] in H; [injection H as <-; exists m; exact O|].
  destruct (step a w) as [w1|] eqn:E; [|discriminate H]. cbn [tidy] in T. rewrite E in T. destruct T as [T1 T2].
  destruct (own_step _ _ _ m E I O) as (m1 & O1).
  - intros q tid c p -> P. cbn beta iota in T1. rewrite P in T1. exact T1.
  - exact (IH _ m1 H T2 (inv_step _ _ _ E I) O1).
Qed.
Lemma times_le m n l : (forall q t e, In (q, t, e) l -> m (e_num e) = q) -> times n l = times_of (m n) n l.
Proof.
  unfold times, times_of. induction l as [|[[q t] e] l IH]; intros H; [reflexivity|]. cbn [filter fst snd].
  assert (A := H q t e (or_introl eq_refl)). assert (B := IH (fun q' t' e' X => H q' t' e' (or_intror X))).
  destruct (Nat.eqb (e_num e) n) eqn:E.
  - apply Nat.eqb_eq in E. rewrite E in A. rewrite A, Nat.eqb_refl. cbn [andb length]. rewrite A in B. now rewrite B.
  - rewrite andb_false_r. exact B.
Qed.
Lemma apart h w : run h world0 = Some w -> tidy h world0 ->
  (forall x, In x (w_shown w) -> right x) /\ (forall n, times n (w_shown w) <= 1).
Proof.
  intros H T. assert (I := inv_run _ _ _ H inv0).
  destruct (own_run _ _ _ (fun _ => 0) H T inv0) as (m & O1 & O2); [split; cbn; [discriminate|contradiction]|].
  destruct I as [_ _ _ S1 Sh]. split.
  - intros [[q t] e] X. split; cbn [fst snd]; [exact (proj1 (O2 _ _ _ X))|exact (proj1 (proj2 (Sh _ _ _ X)))].
  - intros n. rewrite (times_le m); [apply S1|]. intros q t e X. exact (proj2 (O2 _ _ _ X)).
Qed.

(** What waits in a process that has a sender can be sent. *)
Lemma put_at q p w : w_procs (put q p w) q = p.
Proof. cbn [put w_procs]. now rewrite Nat.eqb_refl. Qed.
Lemma taken_all b : exists ks, forall t e, inb b t e -> inb (taken ks b) t e.
Proof.
  induction b as [|[t0 l] b (ks & IH)]; [exists []; auto|]. exists (length l :: ks). intros t e (l' & A & B). cbn [taken hd tl]. destruct A as [A|A].
  - injection A as <- <-. exists (firstn (length l) l). split; [left; reflexivity|]. now rewrite firstn_all.
  - destruct (IH t e (ex_intro _ l' (conj A B))) as (l2 & C & D). exists l2. split; [right; exact C|exact D].
Qed.
Lemma flush w q p b : w_procs w q = Some p -> p_hand p = Some b ->
  exists h w1 p1, run h w = Some w1 /\ (forall a, In a h -> a = Send q) /\ w_procs w1 q = Some p1 /\ p_hand p1 = Some [] /\ p_bufs p1 = p_bufs p /\
    (forall t e, inb b t e -> In (q, t, e) (w_shown w1)) .
Proof.
  intros P B. destruct b as [|x r].
  - exists [], w, p. split; [reflexivity|]. split; [intros a []|]. split; [exact P|]. split; [exact B|]. split; [reflexivity|]. intros t e X. destruct (inb_nil _ _ X).
  - eexists [Send q], _, _. split; [cbn [run step]; rewrite P, B; reflexivity|]. split; [intros a [<-|[]]; reflexivity|]. split; [apply put_at|].
    split; [reflexivity|]. split; [reflexivity|]. intros t e X. cbn [put w_shown]. apply in_app_iff. right. apply in_shown. now split.
Qed.
Lemma flush_only w q p : w_procs w q = Some p -> p_hand p = Some [] -> p_locked p = false ->
  exists h w1, run h w = Some w1 /\ (forall a, In a h -> a = Lock q \/ (exists ks, a = Pop q ks) \/ a = Send q) /\
    (forall t e, inb (p_bufs p) t e -> In (q, t, e) (w_shown w1)).
Proof.
  intros P B L. destruct (taken_all (p_bufs p)) as (ks & K).
  destruct (step (Lock q) w) as [w1|] eqn:E1; [|cbn [step] in E1; rewrite P, B, L in E1; discriminate E1].
  assert (P1 : exists p1, w_procs w1 q = Some p1 /\ p_hand p1 = Some [] /\ p_locked p1 = true /\ p_bufs p1 = p_bufs p).
  { cbn [step] in E1. rewrite P, B, L in E1. injection E1 as <-. eexists. split; [apply put_at|]. now repeat split. }
  destruct P1 as (p1 & P1 & B1 & L1 & F1).
  destruct (step (Pop q ks) w1) as [w2|] eqn:E2; [|cbn [step] in E2; rewrite P1, B1, L1 in E2; discriminate E2].
  assert (P2 : exists p2, w_procs w2 q = Some p2 /\ p_hand p2 = Some (taken ks (p_bufs p))).
  { cbn [step] in E2. rewrite P1, B1, L1 in E2. injection E2 as <-. eexists. split; [apply put_at|]. cbn [p_hand]. now rewrite F1. }
  destruct P2 as (p2 & P2 & B2). destruct (flush _ _ _ _ P2 B2) as (h & w3 & p3 & R & Hs & _ & _ & _ & Q).
  exists (Lock q :: Pop q ks :: h), w3. split; [cbn [run]; rewrite E1, E2; exact R|]. split.
  - intros a [<-|[<-|X]]; [left; reflexivity|right; left; exists ks; reflexivity|right; right; exact (Hs _ X)].
  - intros t e X. exact (Q _ _ (K _ _ X)).
Qed.
Lemma locked_idle h w : run h world0 = Some w -> forall q p, w_procs w q = Some p -> p_locked p = true -> p_hand p = Some [].
Proof.
  intros H. assert (G : forall h w w', run h w = Some w' -> (forall q p, w_procs w q = Some p -> p_locked p = true -> p_hand p = Some []) ->
    forall q p, w_procs w' q = Some p -> p_locked p = true -> p_hand p = Some []).
  { clear. induction h as [|a h IH]; intros w w' H I; cbn [run] in H; [injection H as <-; exact I|].
    destruct (step a w) as [w1|] eqn:E; [|discriminate H]. refine (IH _ _ H _). clear IH H h w'. intros q x X L.
    destruct a as [pid tid|pid tid|pid tid|pid|pid|pid ks|pid|pid tid c|pid tid|pid]; cbn [step] in E;
      repeat match type of E with
             | context [match ?y with _ => _ end] => destruct y eqn:?; try discriminate E
             | (if ?y then _ else _) = _ => destruct y eqn:?; try discriminate E
             end; injection E as <-; apply put_some in X; (destruct X as [[-> X]|[_ X]]; [try discriminate X; injection X as <-|exact (I _ _ X L)]);
      cbn [p_locked p_hand] in *; try discriminate L; try reflexivity; try (eapply I; eassumption).
    all: match goal with P : w_procs ?w ?q = Some ?p, L : p_locked ?p = true, Q : p_hand ?p = _ |- _ => pose proof (I _ _ P L) as Z; rewrite Q in Z; discriminate Z end. }
  apply (G h world0 w H). cbn. discriminate.
Qed.
Lemma delivers h w pid p tid e : run h world0 = Some w -> w_procs w pid = Some p -> p_hand p <> None -> inb (all p) tid e ->
  exists more w', run more w = Some w' /\ (forall a, In a more -> a = Lock pid \/ (exists ks, a = Pop pid ks) \/ a = Send pid) /\ In (pid, tid, e) (w_shown w').
Proof.
  intros H P N X. destruct (p_hand p) as [b|] eqn:B; [|congruence]. clear N.
  unfold all, hand in X. rewrite B in X. apply inb_app in X. destruct X as [X|X].
  - destruct (p_locked p) eqn:L.
    + assert (B0 := locked_idle _ _ H _ _ P L). rewrite B0 in B. injection B as <-.
      destruct (taken_all (p_bufs p)) as (ks & K).
      destruct (step (Pop pid ks) w) as [w2|] eqn:E2; [|cbn [step] in E2; rewrite P, B0, L in E2; discriminate E2].
      assert (P2 : exists p2, w_procs w2 pid = Some p2 /\ p_hand p2 = Some (taken ks (p_bufs p))).
      { cbn [step] in E2. rewrite P, B0, L in E2. injection E2 as <-. eexists. split; [apply put_at|]. reflexivity. }
      destruct P2 as (p2 & P2 & B2). destruct (flush _ _ _ _ P2 B2) as (h3 & w3 & p3 & R & Hs & _ & _ & _ & Q).
      exists (Pop pid ks :: h3), w3. split; [cbn [run]; rewrite E2; exact R|]. split; [|exact (Q _ _ (K _ _ X))].
      intros a [<-|Y]; [right; left; exists ks; reflexivity|right; right; exact (Hs _ Y)].
    + assert (G : exists h1 w1 p1, run h1 w = Some w1 /\ (forall a, In a h1 -> a = Send pid) /\ w_procs w1 pid = Some p1 /\ p_hand p1 = Some [] /\ p_bufs p1 = p_bufs p /\ p_locked p1 = false).
      { destruct b as [|x r].
        - exists [], w, p. split; [reflexivity|]. split; [intros a []|]. now repeat split.
        - eexists [Send pid], _, _. split; [cbn [run step]; rewrite P, B; reflexivity|]. split; [intros a [<-|[]]; reflexivity|]. split; [apply put_at|].
          split; [reflexivity|]. split; [reflexivity|exact L]. }
      destruct G as (h1 & w1 & p1 & R1 & S1 & P1 & B1 & F1 & L1).
      destruct (flush_only _ _ _ P1 B1 L1) as (h2 & w2 & R2 & S2 & Q). exists (h1 ++ h2), w2. split.
      * revert R1 R2; clear; revert w; intros w0 R1 R2; revert w0 R1. induction h1 as [|a h1 IH]; intros w0 R1; cbn [run app] in *; [injection R1 as ->; exact R2|].
        destruct (step a w0); [exact (IH _ R1)|discriminate R1].
      * split; [|apply Q; rewrite F1; exact X]. intros a Y. apply in_app_iff in Y. destruct Y as [Y|Y]; [right; right; exact (S1 _ Y)|exact (S2 _ Y)].
  - destruct (flush _ _ _ _ P B) as (h3 & w3 & p3 & R & Hs & _ & _ & _ & Q). exists h3, w3. split; [exact R|]. split; [|exact (Q _ _ X)].
    intros a Y. right. right. exact (Hs _ Y).
Qed.

(** A process that never makes a sender shows nothing. *)
Lemma silent_run pid h w w' : run h w = Some w' -> existsb (exposes pid) h = false -> In pid (w_used w) ->
  (forall p, w_procs w pid = Some p -> p_hand p = None) -> (forall x, In x (w_shown w) -> fst (fst x) <> pid) ->
  forall x, In x (w_shown w') -> fst (fst x) <> pid.
Proof.
  revert w. induction h as [|a h IH]; intros w H X U N Sh; cbn [run] in H; [injection H as <-; exact Sh|].
  destruct (step a w) as [w1|] eqn:E; [|discriminate H]. cbn [existsb] in X. apply orb_false_iff in X. destruct X as [X1 X2].
  refine (IH _ H X2 _ _ _); clear IH H X2 h w'.
  - destruct (step_view _ _ _ E) as [q p p' P H1 H2|q p' N1 H1|q p P|q tid p p' P H1 H2|q p p' b P B H1|q tid c p p' A P N1 H1]; cbn [put w_used]; auto; now right.
  - intros p Y. destruct a as [q tid|q tid|q tid|q|q|q ks|q|q tid c|q tid|q]; cbn [step] in E;
      repeat match type of E with
             | context [match ?y with _ => _ end] => destruct y eqn:?; try discriminate E
             end; injection E as <-; apply put_some in Y; (destruct Y as [[-> Y]|[_ Y]]; [try discriminate Y; injection Y as <-|exact (N _ Y)]);
      cbn [p_hand] in *; try reflexivity; try (apply N; assumption).
    + cbn [exposes] in X1. rewrite Nat.eqb_refl in X1. discriminate X1.
    + match goal with P : w_procs _ q = Some ?p, Q : p_hand ?p = Some _ |- _ => rewrite (N _ P) in Q; discriminate Q end.
    + match goal with P : w_procs _ q = Some ?p, Q : p_hand ?p = Some _ |- _ => rewrite (N _ P) in Q; discriminate Q end.
    + match goal with P : w_procs _ q = Some ?p, Q : p_hand ?p = Some _ |- _ => rewrite (N _ P) in Q; discriminate Q end.
  - destruct (step_view _ _ _ E) as [q p p' P H1 H2|q p' N1 H1|q p P|q tid p p' P H1 H2|q p p' b P B H1|q tid c p p' A P N1 H1]; cbn [put w_shown]; auto.
    intros [[q' t] e] Y. apply in_app_iff in Y. destruct Y as [Y|Y]; [exact (Sh _ Y)|]. apply in_shown in Y. destruct Y as [-> _]. cbn [fst].
    intros ->. rewrite (N _ P) in B. discriminate B.
Qed.
(** A thread that waits for ever is never seen to do anything again, and the process does not end by itself. *)
Lemma stuck_run h w w' pid p tid : run h w = Some w' -> inv w -> w_procs w pid = Some p -> In tid (p_stuck p) ->
  w_procs w' pid = None \/ exists p', w_procs w' pid = Some p' /\ In tid (p_stuck p').
Proof.
  intros H I P T.
  assert (G : forall h w w', run h w = Some w' -> In pid (w_used w) -> (w_procs w pid = None \/ exists p, w_procs w pid = Some p /\ In tid (p_stuck p)) ->
     w_procs w' pid = None \/ exists p', w_procs w' pid = Some p' /\ In tid (p_stuck p')).
  { clear. induction h as [|a h IH]; intros w w' H U K; cbn [run] in H; [injection H as <-; exact K|].
    destruct (step a w) as [w1|] eqn:E; [|discriminate H]. refine (IH _ _ H _ _); clear IH H h w'.
    - destruct (step_view _ _ _ E) as [q p p' P H1 H2|q p' N1 H1|q p P|q tid' p p' P H1 H2|q p p' b P B H1|q tid' c p p' A P N1 H1]; cbn [put w_used]; auto; now right.
    - assert (Z : forall q x w0, w_procs w0 = w_procs w -> (q = pid -> x = None \/ exists p', x = Some p' /\ In tid (p_stuck p')) ->
        w_procs (put q x w0) pid = None \/ exists p', w_procs (put q x w0) pid = Some p' /\ In tid (p_stuck p')).
      { intros q x w0 W Z. cbn [put w_procs]. destruct (Nat.eqb pid q) eqn:Q; [apply Nat.eqb_eq in Q; exact (Z (eq_sym Q))|rewrite W; exact K]. }
      destruct a as [q tid'|q tid'|q tid'|q|q|q ks|q|q tid' c|q tid'|q]; cbn [step] in E.
      + destruct (mem q (w_used w)) eqn:M; [discriminate E|]. injection E as <-. apply Z; [reflexivity|]. intros ->. apply mem_in in U. congruence.
      + repeat match type of E with context [match ?y with _ => _ end] => destruct y eqn:?; try discriminate E end; injection E as <-; (apply Z; [reflexivity|]); intros ->;
        match goal with P : w_procs _ pid = Some ?p |- _ => destruct K as [K|(p0 & K1 & K2)]; [congruence|]; rewrite P in K1; injection K1 as <- end; right; eexists; (split; [reflexivity|]); cbn [p_stuck]; auto; now right.
      + repeat match type of E with context [match ?y with _ => _ end] => destruct y eqn:?; try discriminate E end; injection E as <-; (apply Z; [reflexivity|]); intros ->;
        match goal with P : w_procs _ pid = Some ?p |- _ => destruct K as [K|(p0 & K1 & K2)]; [congruence|]; rewrite P in K1; injection K1 as <- end; right; eexists; (split; [reflexivity|]); cbn [p_stuck]; auto; now right.
      + repeat match type of E with context [match ?y with _ => _ end] => destruct y eqn:?; try discriminate E end; injection E as <-; (apply Z; [reflexivity|]); intros ->;
        match goal with P : w_procs _ pid = Some ?p |- _ => destruct K as [K|(p0 & K1 & K2)]; [congruence|]; rewrite P in K1; injection K1 as <- end; right; eexists; (split; [reflexivity|]); cbn [p_stuck]; auto; now right.
      + repeat match type of E with context [match ?y with _ => _ end] => destruct y eqn:?; try discriminate E end; injection E as <-; (apply Z; [reflexivity|]); intros ->;
        match goal with P : w_procs _ pid = Some ?p |- _ => destruct K as [K|(p0 & K1 & K2)]; [congruence|]; rewrite P in K1; injection K1 as <- end; right; eexists; (split; [reflexivity|]); cbn [p_stuck]; auto; now right.
      + repeat match type of E with context [match ?y with _ => _ end] => destruct y eqn:?; try discriminate E end; injection E as <-; (apply Z; [reflexivity|]); intros ->;
        match goal with P : w_procs _ pid = Some ?p |- _ => destruct K as [K|(p0 & K1 & K2)]; [congruence|]; rewrite P in K1; injection K1 as <- end; right; eexists; (split; [reflexivity|]); cbn [p_stuck]; auto; now right.
      + destruct (w_procs w q) as [p|] eqn:P; [|discriminate E]. destruct (p_hand p) as [[|x r]|]; [discriminate E| |discriminate E]. injection E as <-. apply Z; [reflexivity|]. intros ->.
        destruct K as [K|(p0 & K1 & K2)]; [congruence|]. rewrite P in K1. injection K1 as <-. right. eexists. split; [reflexivity|exact K2].
      + destruct (w_procs w q) as [p|] eqn:P; [|discriminate E]. destruct (runs tid' p && negb (mem c (w_used w))) eqn:R; [|discriminate E]. injection E as <-.
        apply Z; [reflexivity|]. intros ->. apply andb_true_iff in R. destruct R as [_ R]. apply negb_true_iff in R. apply mem_in in U. congruence.
      + repeat match type of E with context [match ?y with _ => _ end] => destruct y eqn:?; try discriminate E end; injection E as <-; (apply Z; [reflexivity|]); intros ->;
        match goal with P : w_procs _ pid = Some ?p |- _ => destruct K as [K|(p0 & K1 & K2)]; [congruence|]; rewrite P in K1; injection K1 as <- end; right; eexists; (split; [reflexivity|]); cbn [p_stuck]; auto; now right.
      + destruct (w_procs w q) as [p|] eqn:P; [|discriminate E]. injection E as <-. apply Z; [reflexivity|]. intros _. now left. }
  apply (G h w w' H (i_used _ I _ _ P)). right. exists p. now split.
Qed.

(** Only processes without a sender fork: no thread waits for ever. *)
Definition easy (p : proc) : Prop := p_ghost p = false /\ p_lost p = false /\ p_stuck p = [] /\ (p_locked p = true -> p_hand p = Some []).
Lemma easy_run h w w' : run h w = Some w' -> calm h w -> (forall q p, w_procs w q = Some p -> easy p) -> forall q p, w_procs w' q = Some p -> easy p.
Proof.
  revert w. induction h as [|a h IH]; intros w H C I; cbn [run] in H; [injection H as <-; exact I|].
  destruct (step a w) as [w1|] eqn:E; [|discriminate H]. cbn [calm] in C. rewrite E in C. destruct C as [C1 C2].
  refine (IH _ H C2 _). clear IH H C2 h w'. intros q0 x X.
  assert (Z : forall q y w0, w_procs w0 = w_procs w -> (forall p', y = Some p' -> easy p') -> w_procs (put q y w0) q0 = Some x -> easy x).
  { intros q y w0 W Z Y. apply put_some in Y. destruct Y as [[_ Y]|[_ Y]]; [exact (Z _ Y)|]. rewrite W in Y. exact (I _ _ Y). }
  destruct a as [q tid'|q tid'|q tid'|q|q|q ks|q|q tid' c|q tid'|q]; cbn [step] in E.
  - destruct (mem q (w_used w)); [discriminate E|]. injection E as <-. revert X. apply Z; [reflexivity|]. intros p' Y. injection Y as <-. now repeat split.
  - destruct (w_procs w q) as [p|] eqn:P; [|discriminate E]. destruct (mem tid' (p_threads p)); [discriminate E|]. injection E as <-.
    revert X. apply Z; [reflexivity|]. intros p' Y. injection Y as <-. exact (I _ _ P).
  - destruct (w_procs w q) as [p|] eqn:P; [|discriminate E]. destruct (runs tid' p); [|discriminate E]. destruct (I _ _ P) as (A1 & A2 & A3 & A4).
    destruct (has tid' (p_bufs p)); [injection E as <-; revert X; apply Z; [reflexivity|]; intros p' Y; injection Y as <-; exact (I _ _ P)|].
    rewrite A2 in E. destruct (p_locked p) eqn:L; [discriminate E|]. injection E as <-. revert X. apply Z; [reflexivity|]. intros p' Y. injection Y as <-.
    split; [exact A1|]. split; [reflexivity|]. split; [exact A3|]. discriminate.
  - destruct (w_procs w q) as [p|] eqn:P; [|discriminate E]. destruct (p_hand p); [discriminate E|]. injection E as <-. destruct (I _ _ P) as (A1 & A2 & A3 & A4).
    revert X. apply Z; [reflexivity|]. intros p' Y. injection Y as <-. split; [exact A1|]. split; [exact A2|]. split; [exact A3|]. discriminate.
  - destruct (w_procs w q) as [p|] eqn:P; [|discriminate E]. destruct (p_hand p) as [[|y r]|]; [|discriminate E|discriminate E]. destruct (p_locked p); [discriminate E|].
    injection E as <-. destruct (I _ _ P) as (A1 & A2 & A3 & A4).
    revert X. apply Z; [reflexivity|]. intros p' Y. injection Y as <-. split; [exact A1|]. split; [exact A2|]. split; [exact A3|]. reflexivity.
  - destruct (w_procs w q) as [p|] eqn:P; [|discriminate E]. destruct (p_hand p) as [[|y r]|]; [|discriminate E|discriminate E]. destruct (p_locked p); [|discriminate E].
    injection E as <-. destruct (I _ _ P) as (A1 & A2 & A3 & A4).
    revert X. apply Z; [reflexivity|]. intros p' Y. injection Y as <-. split; [exact A1|]. split; [exact A2|]. split; [exact A3|]. discriminate.
  - destruct (w_procs w q) as [p|] eqn:P; [|discriminate E]. destruct (p_hand p) as [[|y r]|]; [discriminate E| |discriminate E].
    injection E as <-. destruct (I _ _ P) as (A1 & A2 & A3 & A4).
    revert X. apply Z; [reflexivity|]. intros p' Y. injection Y as <-. split; [exact A1|]. split; [exact A2|]. split; [exact A3|]. reflexivity.
  - destruct (w_procs w q) as [p|] eqn:P; [|discriminate E]. destruct (runs tid' p && negb (mem c (w_used w))); [|discriminate E].
    injection E as <-. destruct (I _ _ P) as (A1 & A2 & A3 & A4). cbn beta iota in C1.
    revert X. apply Z; [reflexivity|]. intros p' Y. injection Y as <-. unfold easy. cbn [p_ghost p_lost p_stuck p_locked p_hand]. rewrite C1, A1, A2.
    split; [reflexivity|]. split; [|split; [reflexivity|discriminate]]. destruct (p_locked p); [|reflexivity]. rewrite C1 in A4. discriminate (A4 eq_refl).
  - destruct (w_procs w q) as [p|] eqn:P; [|discriminate E]. destruct (runs tid' p); [|discriminate E]. destruct (I _ _ P) as (A1 & A2 & A3 & A4). rewrite A1 in E.
    destruct (p_hand p) as [[|y r]|]; [|discriminate E|discriminate E]. destruct (p_locked p); [discriminate E|]. injection E as <-.
    revert X. apply Z; [reflexivity|]. intros p' Y. injection Y as <-. split; [reflexivity|]. split; [exact A2|]. split; [exact A3|]. discriminate.
  - destruct (w_procs w q) as [p|]; [|discriminate E]. injection E as <-. revert X. apply Z; [reflexivity|]. intros p' Y. discriminate Y.
Qed.
Lemma no_hang h w : run h world0 = Some w -> calm h world0 -> forall pid tid, ~ hangs w pid tid.
Proof.
  intros H C pid tid (p & P & T). assert (G := easy_run _ _ _ H C). destruct (G (fun q p0 X => ltac:(discriminate X)) _ _ P) as (_ & _ & Z & _).
  rewrite Z in T. destruct T.
Qed.

(** What is traced is not lost as long as the process lives. *)
Lemma inb_push_old t e b t' e' : inb b t' e' -> inb (push t e b) t' e'.
Proof.
  induction b as [|[t0 l] b IH]; cbn [push]; intros (l' & A & B); [destruct A|].
  destruct (Nat.eqb t0 t).
  - destruct A as [A|A]; [injection A as <- <-; exists (l ++ [e]); split; [left; reflexivity|apply in_app_iff; left; exact B]|exists l'; split; [right; exact A|exact B]].
  - destruct A as [A|A]; [injection A as <- <-; exists l; split; [left; reflexivity|exact B]|].
    destruct (IH (ex_intro _ l' (conj A B))) as (l2 & C & D). exists l2. split; [right; exact C|exact D].
Qed.
Lemma inb_push_new t e b : inb (push t e b) t e.
Proof.
  induction b as [|[t0 l] b (l2 & C & D)]; cbn [push]; [exists [e]; split; left; reflexivity|].
  destruct (Nat.eqb t0 t) eqn:E.
  - apply Nat.eqb_eq in E. subst t0. exists (l ++ [e]). split; [left; reflexivity|]. apply in_app_iff. right. left. reflexivity.
  - exists l2. split; [right; exact C|exact D].
Qed.
Lemma inb_parts ks b t e : inb b t e -> inb (rest ks b) t e \/ inb (taken ks b) t e.
Proof.
  revert ks. induction b as [|[t0 l] b IH]; intros ks (l' & A & B); [destruct A|]. cbn [rest taken]. destruct A as [A|A].
  - injection A as <- <-. rewrite <- (firstn_skipn (hd 0 ks) l) in B. apply in_app_iff in B.
    destruct B as [B|B]; [right; exists (firstn (hd 0 ks) l)|left; exists (skipn (hd 0 ks) l)]; (split; [left; reflexivity|exact B]).
  - destruct (IH (tl ks) (ex_intro _ l' (conj A B))) as [(l2 & C & D)|(l2 & C & D)]; [left|right]; exists l2; (split; [right; exact C|exact D]).
Qed.
Lemma holds_inb p t e : holds p t e <-> inb (p_bufs p) t e \/ inb (hand p) t e.
Proof. apply inb_app. Qed.
Lemma kept_step a w w' pid tid e : step a w = Some w' -> In pid (w_used w) -> kept w pid tid e -> kept w' pid tid e.
Proof.
  intros E U K. unfold kept in *.
  assert (Z : forall q y w0, w_procs w0 = w_procs w -> w_shown w0 = w_shown w ->
     (q = pid -> forall p, w_procs w pid = Some p -> holds p tid e -> match y with Some p' => holds p' tid e | None => True end) ->
     (q = pid -> w_procs w pid <> None \/ y = None) ->
     kept (put q y w0) pid tid e).
  { intros q y w0 W1 W2 Y N. unfold kept. cbn [put w_procs w_shown]. rewrite W1, W2. destruct (Nat.eqb pid q) eqn:Q.
    - apply Nat.eqb_eq in Q. symmetry in Q. specialize (Y Q). specialize (N Q). destruct K as [K|[K|(p & K1 & K2)]].
      + left. destruct N as [N|N]; [congruence|exact N].
      + right. left. exact K.
      + specialize (Y _ K1 K2). destruct y as [p'|]; [right; right; exists p'; now split|left; reflexivity].
    - exact K. }
  destruct a as [q tid'|q tid'|q tid'|q|q|q ks|q|q tid' c|q tid'|q]; cbn [step] in E.
  - destruct (mem q (w_used w)) eqn:M; [discriminate E|]. injection E as <-. apply Z; try reflexivity; intros ->; apply mem_in in U; congruence.
  - destruct (w_procs w q) as [p|] eqn:P; [|discriminate E]. destruct (mem tid' (p_threads p)); [discriminate E|]. injection E as <-.
    apply Z; try reflexivity; intros ->; [|left; congruence]. intros p0 P0 H. rewrite P in P0. injection P0 as <-. exact H.
  - destruct (w_procs w q) as [p|] eqn:P; [|discriminate E]. destruct (runs tid' p); [|discriminate E].
    destruct (has tid' (p_bufs p)).
    { injection E as <-. apply Z; try reflexivity; intros ->; [|left; congruence]. intros p0 P0 H. rewrite P in P0. injection P0 as <-.
      apply holds_inb in H. apply holds_inb. cbn [p_bufs]. destruct H as [H|H]; [left; apply inb_push_old; exact H|right; exact H]. }
    destruct (p_lost p).
    { injection E as <-. apply Z; try reflexivity; intros ->; [|left; congruence]. intros p0 P0 H. rewrite P in P0. injection P0 as <-. exact H. }
    destruct (p_locked p); [discriminate E|]. injection E as <-. apply Z; try reflexivity; intros ->; [|left; congruence]. intros p0 P0 H. rewrite P in P0. injection P0 as <-.
    apply holds_inb in H. apply holds_inb. cbn [p_bufs]. destruct H as [H|H]; [left; apply inb_push_old; exact H|right; exact H].
  - destruct (w_procs w q) as [p|] eqn:P; [|discriminate E]. destruct (p_hand p) eqn:Q; [discriminate E|]. injection E as <-.
    apply Z; try reflexivity; intros ->; [|left; congruence]. intros p0 P0 H. rewrite P in P0. injection P0 as <-.
    apply holds_inb in H. apply holds_inb. unfold hand in *. rewrite Q in H. exact H.
  - destruct (w_procs w q) as [p|] eqn:P; [|discriminate E]. destruct (p_hand p) as [[|x r]|] eqn:Q; [|discriminate E|discriminate E]. destruct (p_locked p); [discriminate E|]. injection E as <-.
    apply Z; try reflexivity; intros ->; [|left; congruence]. intros p0 P0 H. rewrite P in P0. injection P0 as <-.
    apply holds_inb in H. apply holds_inb. unfold hand in *. rewrite Q in H. exact H.
  - destruct (w_procs w q) as [p|] eqn:P; [|discriminate E]. destruct (p_hand p) as [[|x r]|] eqn:Q; [|discriminate E|discriminate E]. destruct (p_locked p); [|discriminate E]. injection E as <-.
    apply Z; try reflexivity; intros ->; [|left; congruence]. intros p0 P0 H. rewrite P in P0. injection P0 as <-.
    apply holds_inb in H. apply holds_inb. unfold hand in *. rewrite Q in H. cbn [p_bufs p_hand]. destruct H as [H|H]; [exact (inb_parts ks _ _ _ H)|destruct (inb_nil _ _ H)].
  - destruct (w_procs w q) as [p|] eqn:P; [|discriminate E]. destruct (p_hand p) as [[|x r]|] eqn:Q; [discriminate E| |discriminate E].
    remember (x :: r) as b eqn:Eb in *. injection E as <-. unfold kept. cbn [put w_procs w_shown]. destruct (Nat.eqb pid q) eqn:Eq.
    + apply Nat.eqb_eq in Eq. subst q. destruct K as [K|[K|(p0 & K1 & K2)]]; [congruence|right; left; apply in_app_iff; left; exact K|].
      rewrite P in K1. injection K1 as <-. apply holds_inb in K2. unfold hand in K2. rewrite Q in K2. right. destruct K2 as [K2|K2].
      * right. eexists. split; [reflexivity|]. apply holds_inb. left. exact K2.
      * left. apply in_app_iff. right. apply in_shown. now split.
    + destruct K as [K|[K|K]]; [left; exact K|right; left; apply in_app_iff; left; exact K|right; right; exact K].
  - destruct (w_procs w q) as [p|] eqn:P; [|discriminate E]. destruct (runs tid' p && negb (mem c (w_used w))) eqn:R; [|discriminate E]. injection E as <-.
    apply andb_true_iff in R. destruct R as [_ R]. apply negb_true_iff in R. apply Z; try reflexivity; intros ->; apply mem_in in U; congruence.
  - destruct (w_procs w q) as [p|] eqn:P; [|discriminate E]. destruct (runs tid' p); [|discriminate E]. destruct (p_ghost p).
    { injection E as <-. apply Z; try reflexivity; intros ->; [|left; congruence]. intros p0 P0 H. rewrite P in P0. injection P0 as <-. exact H. }
    destruct (p_hand p) as [[|x r]|] eqn:Q; [|discriminate E|discriminate E]. destruct (p_locked p); [discriminate E|]. injection E as <-.
    apply Z; try reflexivity; intros ->; [|left; congruence]. intros p0 P0 H. rewrite P in P0. injection P0 as <-.
    apply holds_inb in H. apply holds_inb. unfold hand in *. rewrite Q in H. exact H.
  - destruct (w_procs w q) as [p|] eqn:P; [|discriminate E]. injection E as <-. apply Z; try reflexivity; intros ->; right; reflexivity.
Qed.
Lemma used_step a w w' q : step a w = Some w' -> In q (w_used w) -> In q (w_used w').
Proof.
  intros E U. destruct (step_view _ _ _ E) as [q0 p p' P H1 H2|q0 p' N1 H1|q0 p P|q0 tid p p' P H1 H2|q0 p p' b P B H1|q0 tid c p p' A P N1 H1]; cbn [put w_used]; auto; now right.
Qed.
Lemma never_lost h w pid tid w1 : run h world0 = Some w -> step (Trace pid tid) w = Some w1 ->
  hangs w1 pid tid \/ forall more w2, run more w1 = Some w2 -> kept w2 pid tid {| e_pid := pid; e_tid := tid; e_num := w_next w |}.
Proof.
  intros R E. assert (I := inv_run _ _ _ R inv0). set (e := {| e_pid := pid; e_tid := tid; e_num := w_next w |}).
  assert (G : forall more w0 w2, run more w0 = Some w2 -> In pid (w_used w0) -> kept w0 pid tid e -> kept w2 pid tid e).
  { clear. induction more as [|a more IH]; intros w0 w2 H U K; cbn [run] in H; [injection H as <-; exact K|].
    destruct (step a w0) as [w1|] eqn:E; [|discriminate H]. exact (IH _ _ H (used_step _ _ _ _ E U) (kept_step _ _ _ _ _ _ E U K)). }
  cbn [step] in E. destruct (w_procs w pid) as [p|] eqn:P; [|discriminate E]. destruct (runs tid p); [|discriminate E].
  assert (T : forall p', p_bufs p' = push tid e (p_bufs p) ->
     kept (put pid (Some p') {| w_procs := w_procs w; w_used := w_used w; w_next := S (w_next w); w_forks := w_forks w; w_shown := w_shown w |}) pid tid e).
  { intros p' B. right. right. exists p'. split; [apply put_at|]. apply holds_inb. left. rewrite B. apply inb_push_new. }
  destruct (has tid (p_bufs p)).
  { right. injection E as <-. intros more w2 H. refine (G _ _ _ H (i_used _ I _ _ P) _). apply T. reflexivity. }
  destruct (p_lost p).
  { left. injection E as <-. eexists. split; [apply put_at|left; reflexivity]. }
  destruct (p_locked p); [discriminate E|]. right. injection E as <-. intros more w2 H. refine (G _ _ _ H (i_used _ I _ _ P) _). apply T. reflexivity.
Qed.

Lemma mem_in_true n l : In n l -> mem n l = true.
Proof. intro H. unfold mem. apply existsb_exists. exists n. split; [exact H|apply Nat.eqb_refl]. Qed.
Lemma stands w pid tid a : hangs w pid tid -> by_thread pid tid a -> step a w = None.
Proof.
  intros (p & Hp & Hs) B. assert (R : runs tid p = false) by (unfold runs; rewrite (mem_in_true tid (p_stuck p) Hs); apply andb_false_r).
  destruct B as [->|[->|(c & ->)]]; cbn [step]; rewrite Hp, R; reflexivity.
Qed.
