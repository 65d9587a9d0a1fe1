(** Proofs for C100. *)
From Coq Require Import List Arith Bool Lia.
Import ListNotations.
From Verif Require Import Switch_model Switch_spec.

Lemma nth_set {A} i (x : A) l j : nth_error (set_nth i x l) j = if Nat.eqb j i then match nth_error l j with Some _ => Some x | None => None end else nth_error l j.
Proof.
  revert i j. induction l as [|a l IH]; intros [|i] [|j]; cbn; try reflexivity.
  - destruct (Nat.eqb j i); reflexivity.
  - apply IH.
Qed.
Lemma len_set {A} i (x : A) l : length (set_nth i x l) = length l.
Proof. revert i. induction l as [|a l IH]; intros [|i]; cbn; auto. Qed.
Lemma run_app a b s : run (a ++ b) s = match run a s with Some s' => run b s' | None => None end.
Proof. revert s. induction a as [|l a IH]; intros s; cbn; [reflexivity|]. destruct (step l s); auto. Qed.
Lemma idle_some i s t : idle i s = Some t -> nth_error (s_threads s) i = Some t /\ t_live t = true /\ t_pc t = Idle.
Proof.
  unfold idle. intros E. destruct (nth_error (s_threads s) i) as [u|]; [|discriminate E]. destruct (t_live u) eqn:L; [|discriminate E].
  destruct (t_pc u) eqn:P; try discriminate E. injection E as <-. auto.
Qed.

(** ** How a step changes thread [i]'s events and place *)
Definition own (i : nat) (l : label) : Prop :=
  match l with Enter j _ | LoadP j | LoadT j | Push j _ => j = i | _ => False end.
Lemma own_flag_seen i t s t' k s' : nth_error (s_threads s) i = Some t -> own_flag i t s = (t', k, s') ->
  nth_error (s_threads s') i = Some t' /\ (forall j, j <> i -> nth_error (s_threads s') j = nth_error (s_threads s) j) /\
  t_events t' = t_events t /\ t_pc t' = t_pc t /\ t_flag t' = Some k /\ t_id t' = t_id t /\ t_live t' = t_live t /\ t_saved t' = t_saved t.
Proof.
  intros N. unfold own_flag. destruct (t_flag t) as [k0|] eqn:F; intros E; injection E as <- <- <-; cbn.
  - repeat split; auto.
  - rewrite nth_set, Nat.eqb_refl, N. repeat split; auto. intros j H. rewrite nth_set. destruct (Nat.eqb_spec j i); congruence.
Qed.
Lemma seen_put i t s j : nth_error (s_threads s) i <> None ->
  nth_error (s_threads (with_thread i t s)) j = if Nat.eqb j i then Some t else nth_error (s_threads s) j.
Proof. intros N. cbn. rewrite nth_set. destruct (Nat.eqb_spec j i) as [->|]; [|reflexivity]. destruct (nth_error (s_threads s) i); congruence. Qed.

Lemma other_step l s s' i : step l s = Some s' -> ~ own i l -> events s' i = events s i /\ place s' i = place s i.
Proof.
  intros E O. unfold events, place. destruct l as [tid|j|j e|j|j|j room|j b|b|j isp b|j|h r|h|h]; cbn [step] in E; cbn [own] in O.
  - destruct (existsb _ _); [discriminate E|]. injection E as <-. cbn.
    destruct (lt_dec i (length (s_threads s))) as [H|H]; [rewrite nth_error_app1 by exact H; auto|].
    rewrite nth_error_app2 by lia. rewrite (proj2 (nth_error_None (s_threads s) i)) by lia.
    destruct (i - length (s_threads s)) as [|x]; cbn; [auto|]. destruct x; auto.
  - destruct (idle j s) as [t|] eqn:I; [|discriminate E]. destruct (idle_some _ _ _ I) as (N & L & P). destruct (t_saved t); [|discriminate E].
    injection E as <-. cbn. rewrite nth_set. destruct (Nat.eqb_spec i j) as [->|]; [rewrite N; cbn; auto|auto].
  - destruct (idle j s) as [t|] eqn:I; [|discriminate E]. destruct (idle_some _ _ _ I) as (N & L & P).
    destruct (own_flag j t s) as [[t' k] s1] eqn:F. injection E as <-. destruct (own_flag_seen _ _ _ _ _ _ N F) as (N1 & N2 & _).
    rewrite seen_put by congruence. destruct (Nat.eqb_spec i j) as [->|H]; [destruct (O eq_refl)|rewrite N2 by exact H; auto].
  - destruct (nth_error (s_threads s) j) as [t|] eqn:N; [|discriminate E]. destruct (t_pc t); try discriminate E. injection E as <-.
    rewrite seen_put by congruence. destruct (Nat.eqb_spec i j) as [->|H]; [destruct (O eq_refl)|auto].
  - destruct (nth_error (s_threads s) j) as [t|] eqn:N; [|discriminate E]. destruct (t_pc t); try discriminate E. destruct (t_flag t); [|discriminate E]. injection E as <-.
    rewrite seen_put by congruence. destruct (Nat.eqb_spec i j) as [->|H]; [destruct (O eq_refl)|auto].
  - destruct (nth_error (s_threads s) j) as [t|] eqn:N; [|discriminate E]. destruct (t_pc t); try discriminate E. injection E as <-.
    rewrite seen_put by congruence. destruct (Nat.eqb_spec i j) as [->|H]; [destruct (O eq_refl)|auto].
  - destruct (idle j s) as [t|] eqn:I; [|discriminate E]. destruct (idle_some _ _ _ I) as (N & L & P).
    destruct (own_flag j t s) as [[t' k] s1] eqn:F. injection E as <-. destruct (own_flag_seen _ _ _ _ _ _ N F) as (N1 & N2 & E1 & E2 & _). cbn.
    destruct (Nat.eq_dec i j) as [->|H]; [rewrite N1, N, E1, E2; auto|rewrite N2 by exact H; auto].
  - injection E as <-. auto.
  - destruct (idle j s) as [t|] eqn:I; [|discriminate E]. destruct (idle_some _ _ _ I) as (N & L & P). destruct isp.
    + injection E as <-. rewrite seen_put by (cbn; congruence). destruct (Nat.eqb_spec i j) as [->|H]; [rewrite N; auto|auto].
    + destruct (own_flag j t s) as [[t' k] s1] eqn:F. injection E as <-. destruct (own_flag_seen _ _ _ _ _ _ N F) as (N1 & N2 & E1 & E2 & _).
      rewrite seen_put by (cbn; congruence). destruct (Nat.eqb_spec i j) as [->|H]; [rewrite N; cbn; auto|cbn; rewrite N2 by exact H; auto].
  - destruct (idle j s) as [t|] eqn:I; [|discriminate E]. destruct (idle_some _ _ _ I) as (N & L & P). destruct (t_saved t) as [|[[|] b] r]; [discriminate E| |].
    + injection E as <-. rewrite seen_put by (cbn; congruence). destruct (Nat.eqb_spec i j) as [->|H]; [rewrite N; auto|auto].
    + destruct (own_flag j t s) as [[t' k] s1] eqn:F. injection E as <-. destruct (own_flag_seen _ _ _ _ _ _ N F) as (N1 & N2 & E1 & E2 & _).
      rewrite seen_put by (cbn; congruence). destruct (Nat.eqb_spec i j) as [->|H]; [rewrite N; cbn; auto|cbn; rewrite N2 by exact H; auto].
  - destruct (s_jobs s h); [discriminate E|]. injection E as <-. auto.
  - destruct (s_jobs s h) as [q|]; [|discriminate E]. destruct (j_todo q) as [|[b|k b| |tid k] r]; try discriminate E; injection E as <-; auto.
  - destruct (s_jobs s h) as [q|]; [|discriminate E]. destruct (j_todo q); [|discriminate E]. injection E as <-. auto.
Qed.
Lemma own_step l s s' i : step l s = Some s' -> own i l ->
  match l with
  | Enter _ e => place s i = Idle /\ place s' i = AtProcess e /\ events s' i = events s i
  | LoadP _ => exists e, place s i = AtProcess e /\ place s' i = (if s_proc s then AtThread e else Idle) /\ events s' i = events s i
  | LoadT _ => exists e, place s i = AtThread e /\ place s' i = (if thread_on s i then AtPush e else Idle) /\ events s' i = events s i
  | Push _ room => exists e, place s i = AtPush e /\ place s' i = Idle /\ events s' i = events s i ++ (if room then [e] else [])
  | _ => False
  end.
Proof.
  intros E O. unfold events, place, thread_on. destruct l as [tid|j|j e|j|j|j room|j b|b|j isp b|j|h r|h|h]; cbn [own] in O; try contradiction; subst j; cbn [step] in E.
  - destruct (idle i s) as [t|] eqn:I; [|discriminate E]. destruct (idle_some _ _ _ I) as (N & L & P).
    destruct (own_flag i t s) as [[t' k] s1] eqn:F. injection E as <-. destruct (own_flag_seen _ _ _ _ _ _ N F) as (N1 & N2 & E1 & E2 & _).
    rewrite seen_put by congruence. rewrite Nat.eqb_refl, N. cbn. auto.
  - destruct (nth_error (s_threads s) i) as [t|] eqn:N; [|discriminate E]. destruct (t_pc t) as [|e|e|e]; try discriminate E. injection E as <-.
    rewrite seen_put by congruence. rewrite Nat.eqb_refl. cbn. eauto.
  - destruct (nth_error (s_threads s) i) as [t|] eqn:N; [|discriminate E]. destruct (t_pc t) as [|e|e|e]; try discriminate E.
    destruct (t_flag t) as [k|]; [|discriminate E]. injection E as <-. rewrite seen_put by congruence. rewrite Nat.eqb_refl. cbn. eauto.
  - destruct (nth_error (s_threads s) i) as [t|] eqn:N; [|discriminate E]. destruct (t_pc t) as [|e|e|e]; try discriminate E. injection E as <-.
    rewrite seen_put by congruence. rewrite Nat.eqb_refl. cbn. eauto.
Qed.
Lemma own_dec i l : {own i l} + {~ own i l}.
Proof. destruct l; cbn; auto using Nat.eq_dec. Qed.

(** ** Switched off *)
Lemma stops_process i ls : forall s s', run ls s = Some s' -> throughout (fun s => s_proc s = false) ls s ->
  exists x, events s' i = events s i ++ x /\ (x = [] \/ x = past_process (place s i)).
Proof.
  induction ls as [|l ls IH]; intros s s' R T; cbn [run] in R.
  - injection R as <-. exists []. rewrite app_nil_r. auto.
  - destruct T as [T0 T]. destruct (step l s) as [s1|] eqn:E; [|discriminate R]. destruct (IH _ _ R T) as (x & X1 & X2).
    destruct (own_dec i l) as [O|O].
    + pose proof (own_step _ _ _ _ E O) as H. destruct l as [tid|j|j e|j|j|j room|j b|b|j isp b|j|h r|h|h]; try contradiction.
      * destruct H as (H1 & H2 & H3). rewrite H2 in X2. rewrite H3 in X1. rewrite H1. exists x. cbn in *. tauto.
      * destruct H as (e & H1 & H2 & H3). rewrite T0 in H2. rewrite H2 in X2. rewrite H3 in X1. rewrite H1. exists x. cbn in *. tauto.
      * destruct H as (e & H1 & H2 & H3). rewrite H2 in X2. rewrite H3 in X1. rewrite H1. exists x. split; [exact X1|]. destruct (thread_on s i); cbn in *; tauto.
      * destruct H as (e & H1 & H2 & H3). rewrite H2 in X2. rewrite H1. cbn in X2. assert (x = []) as -> by tauto. rewrite app_nil_r in X1.
        exists (if room then [e] else []). rewrite X1, H3. destruct room; cbn; auto.
    + destruct (other_step _ _ _ i E O) as [H1 H2]. rewrite H1 in X1. rewrite H2 in X2. eauto.
Qed.
Lemma stops_thread i ls : forall s s', run ls s = Some s' -> throughout (fun s => thread_on s i = false) ls s ->
  exists x, events s' i = events s i ++ x /\ (x = [] \/ x = past_both (place s i)).
Proof.
  induction ls as [|l ls IH]; intros s s' R T; cbn [run] in R.
  - injection R as <-. exists []. rewrite app_nil_r. auto.
  - destruct T as [T0 T]. destruct (step l s) as [s1|] eqn:E; [|discriminate R]. destruct (IH _ _ R T) as (x & X1 & X2).
    destruct (own_dec i l) as [O|O].
    + pose proof (own_step _ _ _ _ E O) as H. destruct l as [tid|j|j e|j|j|j room|j b|b|j isp b|j|h r|h|h]; try contradiction.
      * destruct H as (H1 & H2 & H3). rewrite H2 in X2. rewrite H3 in X1. rewrite H1. exists x. cbn in *. tauto.
      * destruct H as (e & H1 & H2 & H3). rewrite H2 in X2. rewrite H3 in X1. rewrite H1. exists x. split; [exact X1|]. destruct (s_proc s); cbn in *; tauto.
      * destruct H as (e & H1 & H2 & H3). rewrite T0 in H2. rewrite H2 in X2. rewrite H3 in X1. rewrite H1. exists x. cbn in *. tauto.
      * destruct H as (e & H1 & H2 & H3). rewrite H2 in X2. rewrite H1. cbn in X2. assert (x = []) as -> by tauto. rewrite app_nil_r in X1.
        exists (if room then [e] else []). rewrite X1, H3. destruct room; cbn; auto.
    + destruct (other_step _ _ _ i E O) as [H1 H2]. rewrite H1 in X1. rewrite H2 in X2. eauto.
Qed.
(** ** Switched on *)
Lemma come_other i l ls : ~ own i l -> come_to i (l :: ls) = come_to i ls.
Proof. destruct l; cbn; auto. intros H. destruct (Nat.eqb_spec i0 i); [contradiction|reflexivity]. Qed.
Lemma records i ls : forall s s', run ls s = Some s' -> throughout (fun s => s_proc s = true /\ thread_on s i = true) ls s -> Forall (roomy i) ls ->
  events s' i ++ under_way (place s' i) = events s i ++ under_way (place s i) ++ come_to i ls.
Proof.
  induction ls as [|l ls IH]; intros s s' R T F; cbn [run] in R.
  - injection R as <-. cbn. rewrite app_nil_r. reflexivity.
  - destruct T as [[T0 T1] T]. destruct (step l s) as [s1|] eqn:E; [|discriminate R]. inversion F as [|? ? F1 F2]; subst.
    rewrite (IH _ _ R T F2). destruct (own_dec i l) as [O|O].
    + pose proof (own_step _ _ _ _ E O) as H. destruct l as [tid|j|j e|j|j|j room|j b|b|j isp b|j|h r|h|h]; try contradiction; cbn in O; subst j.
      * destruct H as (H1 & H2 & H3). rewrite H1, H2, H3. cbn. rewrite Nat.eqb_refl. reflexivity.
      * destruct H as (e & H1 & H2 & H3). rewrite T0 in H2. rewrite H1, H2, H3. reflexivity.
      * destruct H as (e & H1 & H2 & H3). rewrite T1 in H2. rewrite H1, H2, H3. reflexivity.
      * destruct H as (e & H1 & H2 & H3). cbn in F1. rewrite (F1 eq_refl) in H3. rewrite H1, H2, H3. cbn. rewrite <- app_assoc. reflexivity.
    + destruct (other_step _ _ _ i E O) as [H1 H2]. rewrite H1, H2, come_other by exact O. reflexivity.
Qed.

(** ** Threads, the map and the flags *)
Definition core (t : thread) : nat * bool * option nat := (t_id t, t_live t, t_flag t).
Definition cores (s : state) := map core (s_threads s).
Record Inv (cs : list (nat * bool * option nat)) (m : list (nat * nat)) (n : nat) : Prop := {
  i_map : forall tid k, In (tid, k) m <-> exists i, nth_error cs i = Some (tid, true, Some k);
  i_keys : NoDup (map fst m);
  i_ids : forall i j tid f g, nth_error cs i = Some (tid, true, f) -> nth_error cs j = Some (tid, true, g) -> i = j;
  i_less : forall i tid b k, nth_error cs i = Some (tid, b, Some k) -> k < n;
  i_inj : forall i j tid b tid' b' k, nth_error cs i = Some (tid, b, Some k) -> nth_error cs j = Some (tid', b', Some k) -> i = j }.
Definition good (s : state) : Prop := Inv (cores s) (s_map s) (length (s_flags s)).

(** What a step does to them. *)
Inductive change (cs : list (nat * bool * option nat)) (m : list (nat * nat)) (n : nat) : list (nat * bool * option nat) -> list (nat * nat) -> nat -> Prop :=
| C_same : change cs m n cs m n
| C_start tid : (forall i f, nth_error cs i <> Some (tid, true, f)) -> change cs m n (cs ++ [(tid, true, None)]) m n
| C_end i tid f : nth_error cs i = Some (tid, true, f) ->
    change cs m n (set_nth i (tid, false, f) cs) (match f with Some _ => filter (fun e => negb (Nat.eqb (fst e) tid)) m | None => m end) n
| C_make i tid : nth_error cs i = Some (tid, true, None) -> change cs m n (set_nth i (tid, true, Some n) cs) ((tid, n) :: m) (S n).

Lemma map_set {A B} (f : A -> B) i x l : map f (set_nth i x l) = set_nth i (f x) (map f l).
Proof. revert i. induction l as [|a l IH]; intros [|i]; cbn; congruence. Qed.
Lemma set_same {A} i (x : A) l : nth_error l i = Some x -> set_nth i x l = l.
Proof. revert i. induction l as [|a l IH]; intros [|i]; cbn; intros E; try congruence. f_equal. auto. Qed.
Lemma nth_cores s i t : nth_error (s_threads s) i = Some t -> nth_error (cores s) i = Some (core t).
Proof. apply map_nth_error. Qed.
Lemma cores_put i t' s t : nth_error (s_threads s) i = Some t -> core t' = core t -> cores (with_thread i t' s) = cores s.
Proof. intros N C. unfold cores. cbn. rewrite map_set, C. apply set_same, nth_cores, N. Qed.
Lemma change_own i t s t' k s' : nth_error (s_threads s) i = Some t -> t_live t = true -> own_flag i t s = (t', k, s') ->
  change (cores s) (s_map s) (length (s_flags s)) (cores s') (s_map s') (length (s_flags s')).
Proof.
  intros N L. unfold own_flag. destruct (t_flag t) as [k0|] eqn:F; intros E; injection E as <- <- <-; [apply C_same|].
  unfold cores. cbn. rewrite app_length, Nat.add_comm, map_set. unfold core at 3. cbn. rewrite L. apply C_make. refine (eq_trans (nth_cores _ _ _ N) _). unfold core. rewrite F, L. reflexivity.
Qed.
Lemma change_step l s s' : step l s = Some s' -> change (cores s) (s_map s) (length (s_flags s)) (cores s') (s_map s') (length (s_flags s')).
Proof.
  intros E. destruct l as [tid|j|j e|j|j|j room|j b|b|j isp b|j|h r|h|h]; cbn [step] in E.
  - destruct (existsb _ _) eqn:X; [discriminate E|]. injection E as <-. unfold cores. cbn. rewrite map_app. apply C_start.
    intros i f H. apply not_true_iff_false in X. apply X. apply existsb_exists. rewrite nth_error_map in H.
    destruct (nth_error (s_threads s) i) as [t|] eqn:N; [|discriminate H]. exists t. split; [exact (nth_error_In _ _ N)|].
    injection H as H1 H2 H3. rewrite H1, H2, Nat.eqb_refl. reflexivity.
  - destruct (idle j s) as [t|] eqn:I; [|discriminate E]. destruct (idle_some _ _ _ I) as (N & L & P). destruct (t_saved t); [|discriminate E].
    injection E as <-. unfold cores. cbn. rewrite map_set. cbn. apply C_end. refine (eq_trans (nth_cores _ _ _ N) _). unfold core. rewrite L. reflexivity.
  - destruct (idle j s) as [t|] eqn:I; [|discriminate E]. destruct (idle_some _ _ _ I) as (N & L & P).
    destruct (own_flag j t s) as [[t' k] s1] eqn:F. injection E as <-. pose proof (change_own _ _ _ _ _ _ N L F) as C.
    destruct (own_flag_seen _ _ _ _ _ _ N F) as (N1 & _). rewrite (cores_put _ _ _ _ N1) by reflexivity. exact C.
  - destruct (nth_error (s_threads s) j) as [t|] eqn:N; [|discriminate E]. destruct (t_pc t); try discriminate E. injection E as <-.
    rewrite (cores_put _ _ _ _ N) by reflexivity. apply C_same.
  - destruct (nth_error (s_threads s) j) as [t|] eqn:N; [|discriminate E]. destruct (t_pc t); try discriminate E. destruct (t_flag t); [|discriminate E]. injection E as <-.
    rewrite (cores_put _ _ _ _ N) by reflexivity. apply C_same.
  - destruct (nth_error (s_threads s) j) as [t|] eqn:N; [|discriminate E]. destruct (t_pc t); try discriminate E. injection E as <-.
    rewrite (cores_put _ _ _ _ N) by reflexivity. apply C_same.
  - destruct (idle j s) as [t|] eqn:I; [|discriminate E]. destruct (idle_some _ _ _ I) as (N & L & P).
    destruct (own_flag j t s) as [[t' k] s1] eqn:F. injection E as <-. pose proof (change_own _ _ _ _ _ _ N L F) as C.
    unfold cores. cbn. rewrite len_set. exact C.
  - injection E as <-. apply C_same.
  - destruct (idle j s) as [t|] eqn:I; [|discriminate E]. destruct (idle_some _ _ _ I) as (N & L & P). destruct isp.
    + injection E as <-. rewrite (cores_put j _ (with_proc b s) t N) by reflexivity. apply C_same.
    + destruct (own_flag j t s) as [[t' k] s1] eqn:F. injection E as <-. pose proof (change_own _ _ _ _ _ _ N L F) as C.
      destruct (own_flag_seen _ _ _ _ _ _ N F) as (N1 & _). rewrite (cores_put j _ (with_flag k b s1) t' N1) by reflexivity. cbn. rewrite len_set. exact C.
  - destruct (idle j s) as [t|] eqn:I; [|discriminate E]. destruct (idle_some _ _ _ I) as (N & L & P). destruct (t_saved t) as [|[[|] b] r]; [discriminate E| |].
    + injection E as <-. rewrite (cores_put j _ (with_proc b s) t N) by reflexivity. apply C_same.
    + destruct (own_flag j t s) as [[t' k] s1] eqn:F. injection E as <-. pose proof (change_own _ _ _ _ _ _ N L F) as C.
      destruct (own_flag_seen _ _ _ _ _ _ N F) as (N1 & _). rewrite (cores_put j _ (with_flag k b s1) t' N1) by reflexivity. cbn. rewrite len_set. exact C.
  - destruct (s_jobs s h); [discriminate E|]. injection E as <-. apply C_same.
  - destruct (s_jobs s h) as [q|]; [|discriminate E]. destruct (j_todo q) as [|[b|k b| |tid k] r]; try discriminate E; injection E as <-; unfold cores; cbn; try rewrite len_set; apply C_same.
  - destruct (s_jobs s h) as [q|]; [|discriminate E]. destruct (j_todo q); [|discriminate E]. injection E as <-. apply C_same.
Qed.
Lemma change_inv cs m n cs' m' n' : Inv cs m n -> change cs m n cs' m' n' -> Inv cs' m' n'.
Proof.
  intros [A B C D F] H. destruct H as [|tid X|i tid f X|i tid X].
  - constructor; assumption.
  - assert (Y : forall i x, nth_error (cs ++ [(tid, true, None)]) i = Some x -> nth_error cs i = Some x \/ i = length cs /\ x = (tid, true, None)).
    { intros i x E. destruct (lt_dec i (length cs)) as [L|L]; [rewrite nth_error_app1 in E by exact L; auto|].
      rewrite nth_error_app2 in E by lia. destruct (i - length cs) as [|z] eqn:Z; cbn in E; [injection E as <-; right; split; [lia|reflexivity]|destruct z; discriminate E]. }
    constructor.
    + intros t k. rewrite A. split; intros [i E]; exists i.
      * rewrite nth_error_app1; [exact E|]. apply nth_error_Some. congruence.
      * destruct (Y _ _ E) as [E'|[_ E']]; [exact E'|discriminate E'].
    + exact B.
    + intros i j t f g E1 E2. destruct (Y _ _ E1) as [E1'|[-> E1']], (Y _ _ E2) as [E2'|[-> E2']].
      * eapply C; eassumption.
      * injection E2' as -> ->. destruct (X _ _ E1').
      * injection E1' as -> ->. destruct (X _ _ E2').
      * reflexivity.
    + intros i t b k E. destruct (Y _ _ E) as [E'|[_ E']]; [exact (D _ _ _ _ E')|discriminate E'].
    + intros i j t b t' b' k E1 E2. destruct (Y _ _ E1) as [E1'|[_ E1']]; [|discriminate E1']. destruct (Y _ _ E2) as [E2'|[_ E2']]; [|discriminate E2']. eapply F; eassumption.
  - assert (Y : forall j t b o, nth_error (set_nth i (tid, false, f) cs) j = Some (t, b, o) -> exists b', nth_error cs j = Some (t, b', o) /\ (b = true -> b' = true /\ j <> i)).
    { intros j t b o E. rewrite nth_set in E. destruct (Nat.eqb_spec j i) as [->|J].
      - rewrite X in E. injection E as <- <- <-. exists true. split; [exact X|discriminate].
      - exists b. auto. }
    assert (Z : forall t k, In (t, k) (match f with Some _ => filter (fun e => negb (Nat.eqb (fst e) tid)) m | None => m end) <-> In (t, k) m /\ (f <> None -> t <> tid)).
    { intros t k. destruct f as [f|]; [|split; [intros H; split; [exact H|congruence]|tauto]]. rewrite filter_In. cbn. rewrite negb_true_iff, Nat.eqb_neq. split; intros [H1 H2]; split; auto. apply H2. discriminate. }
    constructor.
    + intros t k. rewrite Z, A. split.
      * intros [[j E] H]. exists j. rewrite nth_set. destruct (Nat.eqb_spec j i) as [->|J]; [|exact E]. rewrite X in E. injection E as -> ->. destruct H; [discriminate|reflexivity].
      * intros [j E]. destruct (Y _ _ _ _ E) as (b' & E' & J). destruct (J eq_refl) as [-> J']. split; [eauto|]. intros _ ->. apply J'. eapply C; eassumption.
    + destruct f as [f|]; [|exact B]. clear - B. induction m as [|[t k] m IH]; cbn; [constructor|]. inversion B; subst. destruct (negb (Nat.eqb t tid)); cbn; [|auto].
      constructor; [|auto]. intros H. apply H1. apply in_map_iff in H. destruct H as (x & E & I). apply filter_In in I. rewrite <- E. apply in_map. tauto.
    + intros j j' t o o' E1 E2. destruct (Y _ _ _ _ E1) as (b1 & E1' & J1). destruct (Y _ _ _ _ E2) as (b2 & E2' & J2). destruct (J1 eq_refl) as [-> _], (J2 eq_refl) as [-> _]. eapply C; eassumption.
    + intros j t b k E. destruct (Y _ _ _ _ E) as (b1 & E1 & _). exact (D _ _ _ _ E1).
    + intros j j' t b t' b' k E1 E2. destruct (Y _ _ _ _ E1) as (b1 & E1' & J1). destruct (Y _ _ _ _ E2) as (b2 & E2' & J2). eapply F; eassumption.
  - assert (Y : forall j x, nth_error (set_nth i (tid, true, Some n) cs) j = Some x -> j = i /\ x = (tid, true, Some n) \/ j <> i /\ nth_error cs j = Some x).
    { intros j x E. rewrite nth_set in E. destruct (Nat.eqb_spec j i) as [->|J]; [|auto]. rewrite X in E. injection E as <-. auto. }
    constructor.
    + intros t k. cbn. rewrite A. split.
      * intros [E|[j E]]; [injection E as <- <-; exists i; rewrite nth_set, Nat.eqb_refl, X; reflexivity|].
        exists j. rewrite nth_set. destruct (Nat.eqb_spec j i) as [->|J]; [|exact E]. rewrite X in E. discriminate E.
      * intros [j E]. destruct (Y _ _ E) as [[-> E']|[J E']]; [injection E' as -> ->; auto|right; eauto].
    + cbn. constructor; [|exact B]. intros H. apply in_map_iff in H. destruct H as ([t k] & E & I). cbn in E. subst t. apply A in I. destruct I as [j I].
      assert (i = j) by (eapply C; eassumption). subst j. rewrite X in I. discriminate I.
    + intros j j' t o o' E1 E2. destruct (Y _ _ E1) as [[-> E1']|[J1 E1']], (Y _ _ E2) as [[-> E2']|[J2 E2']].
      * reflexivity.
      * injection E1' as -> ->. eapply C; eassumption.
      * injection E2' as -> ->. eapply C; eassumption.
      * eapply C; eassumption.
    + intros j t b k E. destruct (Y _ _ E) as [[-> E']|[J E']]; [injection E' as -> -> ->; lia|]. specialize (D _ _ _ _ E'). lia.
    + intros j j' t b t' b' k E1 E2. destruct (Y _ _ E1) as [[-> E1']|[J1 E1']], (Y _ _ E2) as [[-> E2']|[J2 E2']].
      * reflexivity.
      * injection E1' as -> -> ->. specialize (D _ _ _ _ E2'). lia.
      * injection E2' as -> -> ->. specialize (D _ _ _ _ E1'). lia.
      * eapply F; eassumption.
Qed.
Lemma good_run ls : forall s s', good s -> run ls s = Some s' -> good s'.
Proof.
  induction ls as [|l ls IH]; intros s s' G E; cbn [run] in E; [injection E as <-; exact G|]. destruct (step l s) as [s1|] eqn:E1; [|discriminate E].
  refine (IH _ _ _ E). exact (change_inv _ _ _ _ _ _ G (change_step _ _ _ E1)).
Qed.
Lemma good0 : good state0.
Proof.
  constructor; cbn.
  - intros tid k. split; [intros []|intros [[|i] E]; discriminate E].
  - constructor.
  - intros [|i]; discriminate.
  - intros [|i]; discriminate.
  - intros [|i]; discriminate.
Qed.

(** Threads keep their flags; flags that are made are new. *)
Definition grown (cs : list (nat * bool * option nat)) (n : nat) (cs' : list (nat * bool * option nat)) : Prop :=
  (forall i tid b f, nth_error cs i = Some (tid, b, f) -> exists b' f', nth_error cs' i = Some (tid, b', f') /\ (f <> None -> f' = f) /\ (f = None -> forall k, f' = Some k -> n <= k)) /\
  (forall i tid b k, length cs <= i -> nth_error cs' i = Some (tid, b, Some k) -> n <= k).
Lemma grown_refl cs n : grown cs n cs.
Proof.
  split.
  - intros i tid b f E. exists b, f. repeat split; auto. intros -> k X. discriminate X.
  - intros i tid b k L E. apply nth_error_None in L. congruence.
Qed.
Lemma change_grown cs m n cs' m' n' : change cs m n cs' m' n' -> grown cs n cs' /\ n <= n' /\ length cs <= length cs'.
Proof.
  intros H. destruct H as [|tid X|i tid f X|i tid X].
  - split; [apply grown_refl|auto].
  - rewrite app_length. split; [|cbn; lia]. split.
    + intros i t b f E. exists b, f. split; [rewrite nth_error_app1; [exact E|apply nth_error_Some; congruence]|]. split; [auto|]. intros -> k Z. discriminate Z.
    + intros i t b k L E. rewrite nth_error_app2 in E by exact L. destruct (i - length cs) as [|[|]]; cbn in E; discriminate E.
  - rewrite len_set. split; [|auto]. split.
    + intros j t b g E. rewrite nth_set. destruct (Nat.eqb_spec j i) as [->|J].
      * rewrite E. rewrite X in E. injection E as <- <- <-. exists false, f. repeat split; auto. intros -> k Z. discriminate Z.
      * exists b, g. repeat split; auto. intros -> k Z. discriminate Z.
    + intros j t b k L E. assert (nth_error (set_nth i (tid, false, f) cs) j = None) by (apply nth_error_None; rewrite len_set; exact L). congruence.
  - rewrite len_set. split; [|auto]. split.
    + intros j t b g E. rewrite nth_set. destruct (Nat.eqb_spec j i) as [->|J].
      * rewrite E. rewrite X in E. injection E as <- <- <-. exists true, (Some n). repeat split; [congruence|]. intros _ k Z. injection Z as <-. auto.
      * exists b, g. repeat split; auto. intros -> k Z. discriminate Z.
    + intros j t b k L E. assert (nth_error (set_nth i (tid, true, Some n) cs) j = None) by (apply nth_error_None; rewrite len_set; exact L). congruence.
Qed.
Lemma grown_trans cs n cs1 n1 cs2 : grown cs n cs1 -> n <= n1 -> length cs <= length cs1 -> grown cs1 n1 cs2 -> grown cs n cs2.
Proof.
  intros [A B] L LL [C D]. split.
  - intros i tid b f E. destruct (A _ _ _ _ E) as (b1 & f1 & E1 & F1 & G1). destruct (C _ _ _ _ E1) as (b2 & f2 & E2 & F2 & G2). exists b2, f2. split; [exact E2|]. split.
    + intros H. specialize (F1 H). subst f1. auto.
    + intros -> k ->. destruct f1 as [k1|]; [|specialize (G2 eq_refl k eq_refl); lia]. specialize (G1 eq_refl k1 eq_refl).
      assert (Some k = Some k1) by (apply F2; discriminate). congruence.
  - intros i tid b k H E. destruct (nth_error cs1 i) as [[[t b1] f1]|] eqn:E1.
    + destruct (C _ _ _ _ E1) as (b2 & f2 & E2 & F2 & G2). rewrite E in E2. injection E2 as -> -> <-. destruct f1 as [k1|]; [|specialize (G2 eq_refl k eq_refl); lia].
      assert (Some k = Some k1) as Z by (apply F2; discriminate). injection Z as ->. exact (B _ _ _ _ H E1).
    + apply nth_error_None in E1. specialize (D _ _ _ _ E1 E). lia.
Qed.
Lemma grown_run ls : forall s s', run ls s = Some s' -> grown (cores s) (length (s_flags s)) (cores s') /\ length (s_flags s) <= length (s_flags s') /\ length (cores s) <= length (cores s').
Proof.
  induction ls as [|l ls IH]; intros s s' E; cbn [run] in E.
  - injection E as <-. split; [apply grown_refl|auto].
  - destruct (step l s) as [s1|] eqn:E1; [|discriminate E]. destruct (change_grown _ _ _ _ _ _ (change_step _ _ _ E1)) as (A & B & C).
    destruct (IH _ _ E) as (A' & B' & C'). split; [exact (grown_trans _ _ _ _ _ A B C A')|lia].
Qed.

(** ** A request that is handled in peace *)
Fixpoint exec (a : list act) (p : bool) (fl : list bool) (r : reply) : bool * list bool * reply :=
  match a with
  | [] => (p, fl, r)
  | StoreP b :: a' => exec a' b fl r
  | StoreT k b :: a' => exec a' p (set_nth k b fl) r
  | GetP :: a' => exec a' p fl (p, snd r)
  | GetT tid k :: a' => exec a' p fl (fst r, snd r ++ [(tid, nth k fl true)])
  end.
Definition bounded (n : nat) (a : act) : Prop := match a with StoreT k _ | GetT _ k => k < n | _ => True end.
Lemma exec_more n a : forall p fl r l, Forall (bounded n) a -> n <= length fl ->
  exec a p (fl ++ l) r = (fst (fst (exec a p fl r)), snd (fst (exec a p fl r)) ++ l, snd (exec a p fl r)).
Proof.
  induction a as [|x a IH]; intros p fl r l B L; cbn [exec]; [reflexivity|]. inversion B as [|? ? B1 B2]; subst. destruct x as [b|k b| |tid k]; cbn in B1; try (apply IH; assumption).
  - assert (set_nth k b (fl ++ l) = set_nth k b fl ++ l) as ->.
    { assert (K : k < length fl) by lia. clear - K. revert k K. induction fl as [|f fl IH]; cbn; intros k K; [lia|]. destruct k; cbn; [reflexivity|]. f_equal. apply IH. lia. }
    apply IH; [assumption|]. rewrite len_set. exact L.
  - rewrite app_nth1 by lia. apply IH; assumption.
Qed.
(** The job of [h] is the only one, and this is what will come of it. *)
Record alone (h : nat) (s : state) (req : request) (log : list (nat * request * reply)) (res : bool * list bool * reply) : Prop := {
  a_others : forall g, g <> h -> s_jobs s g = None;
  a_job : exists j, s_jobs s h = Some j /\ j_req j = req /\ Forall (bounded (length (s_flags s))) (j_todo j) /\
    exists new, Forall (eq true) new /\ exec (j_todo j) (s_proc s) (s_flags s) (j_reply j) = (fst (fst res), snd (fst res) ++ new, snd res);
  a_log : s_log s = log }.
Lemma own_quiet i t s t' k s' : own_flag i t s = (t', k, s') -> s_proc s' = s_proc s /\ s_jobs s' = s_jobs s /\ s_log s' = s_log s /\ (s_flags s' = s_flags s \/ s_flags s' = s_flags s ++ [true]).
Proof. unfold own_flag. destruct (t_flag t); intros E; injection E as <- <- <-; cbn; auto. Qed.
Lemma quiet_same l s s' : quiet l -> step l s = Some s' -> (forall h, l <> Step h) -> (forall h, l <> Answer h) ->
  s_proc s' = s_proc s /\ s_jobs s' = s_jobs s /\ s_log s' = s_log s /\ (s_flags s' = s_flags s \/ s_flags s' = s_flags s ++ [true]).
Proof.
  intros Q E H1 H2. destruct l as [tid|j|j e|j|j|j room|j b|b|j isp b|j|h r|h|h]; cbn [quiet] in Q; try contradiction; cbn [step] in E.
  - destruct (existsb _ _) eqn:X; [discriminate E|]. injection E as <-. cbn. auto.
  - destruct (idle j s) as [t|] eqn:I; [|discriminate E]. destruct (t_saved t); [|discriminate E]. injection E as <-. cbn. auto.
  - destruct (idle j s) as [t|] eqn:I; [|discriminate E]. destruct (own_flag j t s) as [[t' k] s1] eqn:F. injection E as <-. cbn. exact (own_quiet _ _ _ _ _ _ F).
  - destruct (nth_error (s_threads s) j) as [t|] eqn:N; [|discriminate E]. destruct (t_pc t); try discriminate E. injection E as <-. cbn. auto.
  - destruct (nth_error (s_threads s) j) as [t|] eqn:N; [|discriminate E]. destruct (t_pc t); try discriminate E. destruct (t_flag t); [|discriminate E]. injection E as <-. cbn. auto.
  - destruct (nth_error (s_threads s) j) as [t|] eqn:N; [|discriminate E]. destruct (t_pc t); try discriminate E. injection E as <-. cbn. auto.
  - destruct (H1 h eq_refl).
  - destruct (H2 h eq_refl).
Qed.
Lemma alone_step h l s s' req log res : quiet l -> step l s = Some s' -> l <> Answer h -> alone h s req log res -> alone h s' req log res.
Proof.
  intros Q E N [A (j & J1 & J2 & J3 & new & W & X) L].
  assert (D : (exists g, l = Step g) \/ (exists g, l = Answer g) \/ ((forall g, l <> Step g) /\ (forall g, l <> Answer g))).
  { destruct l; try (right; right; split; discriminate); [left|right; left]; eauto. }
  destruct D as [[g ->]|[[g ->]|[D1 D2]]].
  - cbn [step] in E. destruct (Nat.eq_dec g h) as [->|G]; [|rewrite A in E by exact G; discriminate E]. rewrite J1 in E.
    destruct (j_todo j) as [|a r] eqn:T; [discriminate E|]. inversion J3 as [|? ? B1 B2]; subst.
    destruct a as [b|k b| |tid k]; injection E as <-; constructor; cbn; auto;
      try (intros g G; destruct (Nat.eqb_spec g h); [contradiction|auto]); rewrite Nat.eqb_refl; eexists; (split; [reflexivity|]); cbn; rewrite ?len_set;
      (split; [reflexivity|]); (split; [exact B2|]); exists new; (split; [exact W|]); exact X.
  - cbn [step] in E. destruct (Nat.eq_dec g h) as [->|G]; [destruct (N eq_refl)|]. rewrite A in E by exact G. discriminate E.
  - destruct (quiet_same _ _ _ Q E D1 D2) as (P1 & P2 & P3 & P4). constructor; [rewrite P2; exact A| |rewrite P3; exact L]. rewrite P2. exists j. split; [exact J1|]. split; [exact J2|].
    destruct P4 as [-> | ->]; rewrite P1; [eauto|]. split.
    + rewrite app_length. eapply Forall_impl; [|exact J3]. intros [b|k b| |tid k]; cbn; lia.
    + exists (new ++ [true]). split; [apply Forall_app; split; [exact W|repeat constructor]|].
      rewrite (exec_more (length (s_flags s))) by (try exact J3; lia). rewrite X. cbn. rewrite app_assoc. reflexivity.
Qed.
Lemma alone_run h ls : forall s s' req log res, Forall quiet ls -> ~ In (Answer h) ls -> run ls s = Some s' -> alone h s req log res -> alone h s' req log res.
Proof.
  induction ls as [|l ls IH]; intros s s' req log res Q N E A; cbn [run] in E; [injection E as <-; exact A|]. destruct (step l s) as [s1|] eqn:E1; [|discriminate E].
  inversion Q; subst. refine (IH _ _ _ _ _ _ _ E (alone_step _ _ _ _ _ _ _ _ E1 _ A)); auto; intros H; apply N; [right; exact H|left; auto].
Qed.

(** The stores and the loads. *)
Lemma exec_app a b p fl r : exec (a ++ b) p fl r = exec b (fst (fst (exec a p fl r))) (snd (fst (exec a p fl r))) (snd (exec a p fl r)).
Proof. revert p fl r. induction a as [|[x|k x| |tid k] a IH]; intros p fl r; cbn; auto. Qed.
Lemma exec_loads m p fl r : exec (map (fun e : nat * nat => GetT (fst e) (snd e)) m) p fl r = (p, fl, (fst r, snd r ++ map (fun e => (fst e, nth (snd e) fl true)) m)).
Proof. revert r. induction m as [|e m IH]; intros r; cbn; [rewrite app_nil_r; destruct r; reflexivity|]. rewrite IH. cbn. rewrite <- app_assoc. reflexivity. Qed.
Lemma nth_set_nth k b (fl : list bool) n : nth n (set_nth k b fl) true = if Nat.eqb n k && (k <? length fl) then b else nth n fl true.
Proof.
  revert k n. induction fl as [|f fl IH]; intros [|k] [|n]; cbn; try reflexivity.
  - rewrite andb_false_r. reflexivity.
  - apply IH.
Qed.
Definition thread_stores (m : list (nat * nat)) (ths : list (nat * bool)) : list act :=
  flat_map (fun tb => match find_id (fst tb) m with Some k => [StoreT k (snd tb)] | None => [] end) ths.
Lemma exec_thread_stores m ths : forall p fl r, exists fl', exec (thread_stores m ths) p fl r = (p, fl', r) /\ length fl' = length fl.
Proof.
  induction ths as [|[t b] ths IH]; intros p fl r; cbn; [eauto|]. destruct (find_id t m) as [k|]; cbn; [|apply IH].
  destruct (IH p (set_nth k b fl) r) as (fl' & E & L). rewrite len_set in L. eauto.
Qed.
Lemma stored m ths tid k n : (forall t, find_id t m = Some k -> t = tid) -> find_id tid m = Some k -> k < n ->
  forall p fl r, length fl = n -> nth k (snd (fst (exec (thread_stores m ths) p fl r))) true =
    match asked ths tid with Some b => b | None => nth k fl true end.
Proof.
  intros I F K.
  enough (H : forall ths p fl r o fl0, length fl = n -> nth k fl true = match o with Some b => b | None => nth k fl0 true end ->
     nth k (snd (fst (exec (thread_stores m ths) p fl r))) true = match fold_left (fun o kv => if Nat.eqb (fst kv) tid then Some (snd kv) else o) ths o with Some b => b | None => nth k fl0 true end).
  { intros p fl r L. unfold asked. apply (H ths p fl r None fl L); reflexivity. }
  clear ths. induction ths as [|[t b] ths IH]; intros p fl r o fl0 L E; cbn; [exact E|].
  destruct (find_id t m) as [k'|] eqn:F'.
  - cbn. apply IH; [rewrite len_set; exact L|]. rewrite nth_set_nth. destruct (Nat.eqb_spec t tid) as [->|T].
    + assert (k' = k) as -> by congruence. rewrite Nat.eqb_refl, (proj2 (Nat.ltb_lt k (length fl))) by lia. reflexivity.
    + destruct (Nat.eqb_spec k k') as [<-|]; [destruct (T (I _ F'))|]. cbn. exact E.
  - destruct (Nat.eqb_spec t tid) as [->|T]; [congruence|]. apply IH; auto.
Qed.

Lemma find_in tid k m : NoDup (map fst m) -> (find_id tid m = Some k <-> In (tid, k) m).
Proof.
  induction m as [|[t x] m IH]; cbn; intros N; [split; [discriminate|intros []]|]. inversion N; subst. destruct (Nat.eqb_spec t tid) as [->|T].
  - split; [intros E; injection E as ->; auto|]. intros [E|E]; [injection E as ->; reflexivity|]. destruct H1. apply (in_map fst) in E. exact E.
  - rewrite IH by assumption. split; [auto|]. intros [E|E]; [injection E as -> ->; contradiction|exact E].
Qed.
(** The whole request, on the map, process state and flags [fl]. *)
Lemma exec_program r m p fl : exists fl',
  exec (program r m) p fl (true, []) = (wanted_process r p, fl', (wanted_process r p, map (fun e => (fst e, nth (snd e) fl' true)) m)) /\ length fl' = length fl /\
  (forall tid k, (forall t, find_id t m = Some k -> t = tid) -> find_id tid m = Some k -> k < length fl -> nth k fl' true = wanted_thread r tid (nth k fl true)).
Proof.
  unfold program. destruct r as [|sp p' ths].
  - exists fl. cbn. rewrite exec_loads. cbn. auto.
  - cbn [stores]. rewrite <- app_assoc. rewrite exec_app.
    set (q := fst (fst (exec (if sp then [StoreP p'] else []) p fl (true, [])))).
    assert (Q : q = wanted_process (Change sp p' ths) p) by (unfold q; destruct sp; reflexivity).
    assert (X : snd (fst (exec (if sp then [StoreP p'] else []) p fl (true, []))) = fl /\ snd (exec (if sp then [StoreP p'] else []) p fl (true, [])) = (true, [])) by (destruct sp; split; reflexivity).
    destruct X as [-> ->]. rewrite exec_app. fold (thread_stores m ths). destruct (exec_thread_stores m ths q fl (true, [])) as (fl' & E & L).
    exists fl'. rewrite E. cbn. rewrite exec_loads. cbn. rewrite Q. split; [reflexivity|]. split; [exact L|].
    intros tid k I F K. pose proof (stored m ths tid k (length fl) I F K q fl (true, []) eq_refl) as H. rewrite E in H. exact H.
Qed.

Lemma handled h r ls s s1 : good s -> no_requests s -> Forall quiet ls -> ~ In (Answer h) ls -> run (Begin h r :: ls ++ [Answer h]) s = Some s1 ->
  no_requests s1 /\ s_proc s1 = wanted_process r (s_proc s) /\
  (forall i t, nth_error (s_threads s) i = Some t -> t_live t = true -> thread_on s1 i = match t_flag t with Some _ => wanted_thread r (t_id t) (thread_on s i) | None => true end) /\
  (forall i, length (s_threads s) <= i -> thread_on s1 i = true) /\
  exists ts, s_log s1 = s_log s ++ [(h, r, (s_proc s1, ts))] /\
    (forall tid b, In (tid, b) ts <-> exists i t, nth_error (s_threads s) i = Some t /\ t_live t = true /\ known t /\ t_id t = tid /\ thread_on s1 i = b).
Proof.
  intros G NR Q NA E. cbn [run step] in E. rewrite NR in E. set (sb := with_job h _ s) in E. rewrite run_app in E.
  destruct (run ls sb) as [s2|] eqn:R; [|discriminate E]. cbn [run] in E.
  destruct (exec_program r (s_map s) (s_proc s) (s_flags s)) as (fl' & X & LX & WX).
  destruct G as [GM GK GI GL GJ].
  assert (FM : forall tid k, find_id tid (s_map s) = Some k <-> exists i, nth_error (cores s) i = Some (tid, true, Some k)) by (intros; rewrite find_in by exact GK; apply GM).
  assert (BD : Forall (bounded (length (s_flags s))) (program r (s_map s))).
  { assert (LT : forall tid k, find_id tid (s_map s) = Some k -> k < length (s_flags s)) by (intros tid k F; apply FM in F; destruct F as [i F]; exact (GL _ _ _ _ F)).
    unfold program. apply Forall_app. split; [|constructor; [exact I|]].
    - destruct r as [|sp p' ths]; cbn; [constructor|]. apply Forall_app. split; [destruct sp; repeat constructor|]. apply Forall_forall. intros a Ha. apply in_flat_map in Ha.
      destruct Ha as ([t b] & _ & Ha). destruct (find_id (fst (t, b)) (s_map s)) as [k|] eqn:F; [|destruct Ha]. destruct Ha as [<-|[]]. exact (LT _ _ F).
    - apply Forall_forall. intros a Ha. apply in_map_iff in Ha. destruct Ha as ([t k] & <- & Ha). cbn. apply (LT t). apply find_in; assumption. }
  assert (A : alone h sb r (s_log s) (wanted_process r (s_proc s), fl', (wanted_process r (s_proc s), map (fun e => (fst e, nth (snd e) fl' true)) (s_map s)))).
  { constructor; cbn; [|eexists; split; [rewrite Nat.eqb_refl; reflexivity|]; cbn|reflexivity].
    - intros g Hg. destruct (Nat.eqb_spec g h); [contradiction|]. apply NR.
    - split; [reflexivity|]. split; [exact BD|]. exists []. split; [constructor|]. rewrite app_nil_r. exact X. }
  apply (alone_run _ _ _ _ _ _ _ Q NA R) in A. destruct A as [A1 (j & J1 & J2 & J3 & new & W & Y) A3].
  cbn [step] in E. rewrite J1 in E. destruct (j_todo j); [|discriminate E]. cbn in Y. injection E as <-.
  cbn [fst snd] in Y. injection Y as Y1 Y2 Y3.
  destruct (grown_run _ _ _ R) as ([GR1 GR2] & _ & _). change (cores sb) with (cores s) in GR1, GR2. change (s_flags sb) with (s_flags s) in GR1, GR2.
  set (s1 := {| s_proc := s_proc s2; s_flags := s_flags s2; s_map := s_map s2; s_threads := s_threads s2; s_jobs := fun g => if Nat.eqb g h then None else s_jobs s2 g; s_log := s_log s2 ++ [(h, j_req j, j_reply j)] |}).
  assert (FL : forall k, flag k s1 = nth k fl' true).
  { intros k. unfold flag. cbn. rewrite Y2. destruct (lt_dec k (length fl')) as [K|K]; [rewrite app_nth1 by exact K; reflexivity|].
    rewrite app_nth2 by lia. rewrite (nth_overflow fl') by lia. destruct (lt_dec (k - length fl') (length new)) as [K'|K'].
    - rewrite Forall_forall in W. symmetry. apply W. apply nth_In. exact K'.
    - apply nth_overflow. lia. }
  assert (NEW : forall k, length (s_flags s) <= k -> flag k s1 = true) by (intros k K; rewrite FL; apply nth_overflow; lia).
  assert (TH : forall i t, nth_error (s_threads s) i = Some t -> t_live t = true -> thread_on s1 i = match t_flag t with Some _ => wanted_thread r (t_id t) (thread_on s i) | None => true end).
  { intros i t N L. destruct (GR1 i (t_id t) (t_live t) (t_flag t) (nth_cores _ _ _ N)) as (b' & f' & N' & F1 & F2).
    unfold cores in N'. rewrite nth_error_map in N'. destruct (nth_error (s_threads s2) i) as [t2|] eqn:N2; [|discriminate N']. cbn in N'. injection N' as I1 I2 I3.
    unfold thread_on. cbn [s1 s_threads]. rewrite N2, N. destruct (t_flag t) as [k|] eqn:F.
    - rewrite F1 in I3 by discriminate. rewrite I3, FL. unfold flag.
      assert (C : nth_error (cores s) i = Some (t_id t, true, Some k)) by (rewrite (nth_cores _ _ _ N); unfold core; rewrite L, F; reflexivity).
      apply WX; [|apply FM; eauto|exact (GL _ _ _ _ C)]. intros u U. apply FM in U. destruct U as [i' U]. assert (i = i') by (eapply GJ; eassumption). subst i'. rewrite C in U. congruence.
    - rewrite I3. destruct f' as [k|]; [|reflexivity]. apply NEW. apply F2; reflexivity. }
  split; [|split; [|split; [exact TH|split]]].
  - intros g. cbn. destruct (Nat.eqb_spec g h); [reflexivity|]. apply A1. assumption.
  - cbn. exact Y1.
  - intros i L. unfold thread_on. cbn [s1 s_threads]. destruct (nth_error (s_threads s2) i) as [t2|] eqn:N2; [|reflexivity]. destruct (t_flag t2) as [k|] eqn:F; [|reflexivity].
    apply NEW. apply (GR2 i (t_id t2) (t_live t2) k); [unfold cores; rewrite map_length; exact L|]. rewrite (nth_cores _ _ _ N2). unfold core. rewrite F. reflexivity.
  - exists (map (fun e => (fst e, nth (snd e) fl' true)) (s_map s)). split.
    + cbn. rewrite A3, J2, Y3, Y1. reflexivity.
    + intros tid b. rewrite in_map_iff. split.
      * intros ([u k] & U & I0). cbn in U. injection U as -> <-. apply GM in I0. destruct I0 as [i C]. unfold cores in C. rewrite nth_error_map in C.
        destruct (nth_error (s_threads s) i) as [t|] eqn:N; [|discriminate C]. cbn in C. injection C as C1 C2 C3. exists i, t.
        assert (KN : known t) by (unfold known; congruence).
        split; [exact N|]. split; [exact C2|]. split; [exact KN|]. split; [exact C1|].
        destruct (GR1 i (t_id t) (t_live t) (t_flag t) (nth_cores _ _ _ N)) as (b' & f' & N' & F1 & F2). unfold cores in N'. rewrite nth_error_map in N'.
        destruct (nth_error (s_threads s2) i) as [t2|] eqn:N2; [|discriminate N']. cbn in N'. injection N' as I1 I2 I3.
        unfold thread_on. cbn [s1 s_threads]. rewrite N2. rewrite F1 in I3 by exact KN. rewrite I3, C3. apply FL.
      * intros (i & t & N & L & KN & <- & <-). destruct (t_flag t) as [k|] eqn:F; [|destruct (KN F)]. exists (t_id t, k). cbn. split.
        -- f_equal. destruct (GR1 i (t_id t) (t_live t) (t_flag t) (nth_cores _ _ _ N)) as (b' & f' & N' & F1 & F2). unfold cores in N'. rewrite nth_error_map in N'.
           destruct (nth_error (s_threads s2) i) as [t2|] eqn:N2; [|discriminate N']. cbn in N'. injection N' as I1 I2 I3.
           unfold thread_on. cbn [s1 s_threads]. rewrite N2. rewrite F1 in I3 by exact KN. rewrite I3, F. symmetry. apply FL.
        -- apply GM. exists i. rewrite (nth_cores _ _ _ N). unfold core. rewrite L, F. reflexivity.
Qed.

(** ** Nothing is switched while nothing asks for it *)
Lemma calm_step l s s' : good s -> no_requests s -> quiet l -> step l s = Some s' -> no_requests s' /\ s_proc s' = s_proc s /\ (forall i, thread_on s' i = thread_on s i).
Proof.
  intros G NR Q E.
  assert (D1 : forall h, l <> Step h) by (intros h ->; cbn in E; rewrite NR in E; discriminate E).
  assert (D2 : forall h, l <> Answer h) by (intros h ->; cbn in E; rewrite NR in E; discriminate E).
  destruct (quiet_same _ _ _ Q E D1 D2) as (P1 & P2 & P3 & P4). split; [intros h; rewrite P2; apply NR|]. split; [exact P1|].
  destruct (change_grown _ _ _ _ _ _ (change_step _ _ _ E)) as ([A B] & _ & _).
  assert (FL : forall k, flag k s' = flag k s).
  { intros k. unfold flag. destruct P4 as [-> | ->]; [reflexivity|]. destruct (lt_dec k (length (s_flags s))) as [K|K]; [rewrite app_nth1 by exact K; reflexivity|].
    rewrite app_nth2 by lia. rewrite (nth_overflow (s_flags s)) by lia. destruct (k - length (s_flags s)) as [|[|]]; reflexivity. }
  intros i. unfold thread_on. destruct (nth_error (s_threads s) i) as [t|] eqn:N.
  - destruct (A i (t_id t) (t_live t) (t_flag t) (nth_cores _ _ _ N)) as (b' & f' & N' & F1 & F2). unfold cores in N'. rewrite nth_error_map in N'.
    destruct (nth_error (s_threads s') i) as [t2|] eqn:N2; [|discriminate N']. cbn in N'. injection N' as I1 I2 I3. rewrite I3.
    destruct (t_flag t) as [k|] eqn:F; [rewrite F1 by discriminate; apply FL|]. destruct f' as [k|]; [|reflexivity]. rewrite FL. apply nth_overflow. apply F2; reflexivity.
  - destruct (nth_error (s_threads s') i) as [t2|] eqn:N2; [|reflexivity]. destruct (t_flag t2) as [k|] eqn:F; [|reflexivity]. rewrite FL. apply nth_overflow.
    apply (B i (t_id t2) (t_live t2) k); [unfold cores; rewrite map_length; apply nth_error_None; exact N|]. rewrite (nth_cores _ _ _ N2). unfold core. rewrite F. reflexivity.
Qed.
Lemma calm_throughout ls : forall s s', good s -> no_requests s -> Forall quiet ls -> run ls s = Some s' ->
  throughout (fun u => s_proc u = s_proc s /\ forall i, thread_on u i = thread_on s i) ls s.
Proof.
  assert (W : forall (P Q : state -> Prop), (forall u, P u -> Q u) -> forall ls s, throughout P ls s -> throughout Q ls s).
  { intros P Q PQ. induction ls0 as [|l ls0 IH]; intros s [H H']; split; auto. destruct (step l s); auto. }
  induction ls as [|l ls IH]; intros s s' G NR Q E; cbn [run] in E; cbn [throughout]; (split; [split; [reflexivity|intros; reflexivity]|]); [exact I|].
  destruct (step l s) as [s1|] eqn:E1; [|exact I]. inversion Q; subst. destruct (calm_step _ _ _ G NR H1 E1) as (A & B & C).
  refine (W _ _ _ _ _ (IH s1 s' (change_inv _ _ _ _ _ _ G (change_step _ _ _ E1)) A H2 E)). intros u [U1 U2]. split; [congruence|]. intros i. rewrite U2. apply C.
Qed.
Lemma throughout_impl (P Q : state -> Prop) ls : (forall u, P u -> Q u) -> forall s, throughout P ls s -> throughout Q ls s.
Proof. intros PQ. induction ls as [|l ls IH]; intros s [H H']; split; auto. destruct (step l s); auto. Qed.

(** ** The theorems *)
Lemma done_as_asked ls0 s h r ls s1 : run ls0 state0 = Some s -> no_requests s -> Forall quiet ls -> ~ In (Answer h) ls -> run (handling h r ls) s = Some s1 ->
  s_proc s1 = wanted_process r (s_proc s) /\ (forall i, not_ended s i -> thread_on s1 i = wanted_of r s i) /\
  exists ts, s_log s1 = s_log s ++ [(h, r, (s_proc s1, ts))] /\
    (forall tid b, In (tid, b) ts <-> exists i t, nth_error (s_threads s) i = Some t /\ t_live t = true /\ known t /\ t_id t = tid /\ thread_on s1 i = b).
Proof.
  intros R0 NR Q NA R. destruct (handled h r ls s s1 (good_run _ _ _ good0 R0) NR Q NA R) as (_ & A & B & C & D). split; [exact A|]. split; [|exact D].
  intros i NE. unfold wanted_of. destruct (nth_error (s_threads s) i) as [t|] eqn:N; [apply B; auto|]. apply C. apply nth_error_None. exact N.
Qed.
Lemma calm_after ls0 s h r ls s1 ls2 s2 : run ls0 state0 = Some s -> no_requests s -> Forall quiet ls -> ~ In (Answer h) ls -> run (handling h r ls) s = Some s1 ->
  Forall quiet ls2 -> run ls2 s1 = Some s2 ->
  throughout (fun u => s_proc u = wanted_process r (s_proc s) /\ forall i, not_ended s i -> thread_on u i = wanted_of r s i) ls2 s1.
Proof.
  intros R0 NR Q NA R Q2 R2. assert (G : good s) by exact (good_run _ _ _ good0 R0).
  destruct (handled h r ls s s1 G NR Q NA R) as (NR1 & _). destruct (done_as_asked _ _ _ _ _ _ R0 NR Q NA R) as (A & B & _).
  refine (throughout_impl _ _ _ _ _ (calm_throughout ls2 s1 s2 (good_run _ _ _ G R) NR1 Q2 R2)). intros u [U1 U2]. split; [congruence|]. intros i NE. rewrite U2. auto.
Qed.
Lemma off_stops ls0 s h r ls s1 ls2 s2 i : run ls0 state0 = Some s -> no_requests s -> Forall quiet ls -> ~ In (Answer h) ls -> run (handling h r ls) s = Some s1 ->
  Forall quiet ls2 -> run ls2 s1 = Some s2 ->
  (wanted_process r (s_proc s) = false -> exists x, events s2 i = events s1 i ++ x /\ (x = [] \/ x = past_process (place s1 i))) /\
  (not_ended s i -> wanted_of r s i = false -> exists x, events s2 i = events s1 i ++ x /\ (x = [] \/ x = past_both (place s1 i))).
Proof.
  intros R0 NR Q NA R Q2 R2. pose proof (calm_after _ _ _ _ _ _ _ _ R0 NR Q NA R Q2 R2) as T. split.
  - intros W. apply (stops_process i ls2 s1 s2 R2). refine (throughout_impl _ _ _ _ _ T). intros u [U _]. congruence.
  - intros NE W. apply (stops_thread i ls2 s1 s2 R2). refine (throughout_impl _ _ _ _ _ T). intros u [_ U]. rewrite U by exact NE. exact W.
Qed.
Lemma on_records ls0 s h r ls s1 ls2 s2 i : run ls0 state0 = Some s -> no_requests s -> Forall quiet ls -> ~ In (Answer h) ls -> run (handling h r ls) s = Some s1 ->
  Forall quiet ls2 -> run ls2 s1 = Some s2 -> Forall (roomy i) ls2 ->
  wanted_process r (s_proc s) = true -> not_ended s i -> wanted_of r s i = true ->
  events s2 i ++ under_way (place s2 i) = events s1 i ++ under_way (place s1 i) ++ come_to i ls2.
Proof.
  intros R0 NR Q NA R Q2 R2 RM W NE WT. pose proof (calm_after _ _ _ _ _ _ _ _ R0 NR Q NA R Q2 R2) as T.
  apply (records i ls2 s1 s2 R2); [|exact RM]. refine (throughout_impl _ _ _ _ _ T). intros u [U1 U2]. split; [congruence|]. rewrite U2 by exact NE. exact WT.
Qed.

(** ** What is reported, whatever else goes on *)
Fixpoint loads (a : list act) : list (nat * nat) := match a with [] => [] | GetT tid k :: r => (tid, k) :: loads r | _ :: r => loads r end.
Lemma loads_app a b : loads (a ++ b) = loads a ++ loads b.
Proof. induction a as [|[x|k x| |tid k] a IH]; cbn; congruence. Qed.
Lemma loads_stores r m : loads (stores r m) = [].
Proof.
  destruct r as [|sp p ths]; [reflexivity|]. cbn [stores]. rewrite loads_app. replace (loads (if sp then [StoreP p] else [])) with (@nil (nat * nat)) by (destruct sp; reflexivity).
  cbn. induction ths as [|[t b] ths IH]; cbn; [reflexivity|]. destruct (find_id t m); cbn; exact IH.
Qed.
Record so_far (h : nat) (r : request) (prog : list act) (s0 : state) (pre : list label) (u : state) : Prop := {
  f_run : run pre s0 = Some u;
  f_job : exists j done, s_jobs u h = Some j /\ j_req j = r /\ prog = done ++ j_todo j /\
    (In GetP done -> exists v, moment pre s0 v /\ s_proc v = fst (j_reply j)) /\
    Forall2 (fun tk tb => fst tb = fst tk /\ exists v, moment pre s0 v /\ flag (snd tk) v = snd tb) (loads done) (snd (j_reply j)) }.
Lemma Forall2_weaken {A B} (P Q : A -> B -> Prop) l m : (forall a b, P a b -> Q a b) -> Forall2 P l m -> Forall2 Q l m.
Proof. intros H F. induction F; constructor; auto. Qed.
Lemma moment_more l ls s u : moment ls s u -> moment (ls ++ [l]) s u.
Proof. intros (a & b & -> & E). exists a, (b ++ [l]). rewrite app_assoc. auto. Qed.
Lemma moment_last ls l s u : run ls s = Some u -> moment (ls ++ [l]) s u.
Proof. intros E. exists ls, [l]. auto. Qed.
Lemma so_far_step h r prog s0 pre u l u' : so_far h r prog s0 pre u -> step l u = Some u' -> l <> Answer h -> so_far h r prog s0 (pre ++ [l]) u'.
Proof.
  intros [R (j & done & J1 & J2 & J3 & J4 & J5)] E N.
  assert (R' : run (pre ++ [l]) s0 = Some u') by (rewrite run_app, R; cbn [run]; rewrite E; reflexivity).
  assert (J4' : In GetP done -> exists v, moment (pre ++ [l]) s0 v /\ s_proc v = fst (j_reply j)) by (intros X; destruct (J4 X) as (v & V & W); exists v; split; [apply moment_more; exact V|exact W]).
  assert (J5' : Forall2 (fun tk tb => fst tb = fst tk /\ exists v, moment (pre ++ [l]) s0 v /\ flag (snd tk) v = snd tb) (loads done) (snd (j_reply j))).
  { eapply Forall2_weaken; [|exact J5]. intros tk tb (A & v & V & W). split; [exact A|]. exists v. split; [apply moment_more; exact V|exact W]. }
  assert (K : s_jobs u' h = s_jobs u h -> so_far h r prog s0 (pre ++ [l]) u').
  { intros X. split; [exact R'|]. exists j, done. rewrite X. auto. }
  pose proof (moment_last pre l s0 u R) as ML.
  destruct l as [tid|i|i e|i|i|i room|i b|b|i isp b|i|g q|g|g]; cbn [step] in E.
  - destruct (existsb _ _); [discriminate E|]. injection E as <-. apply K. reflexivity.
  - destruct (idle i u) as [t|]; [|discriminate E]. destruct (t_saved t); [|discriminate E]. injection E as <-. apply K. reflexivity.
  - destruct (idle i u) as [t|]; [|discriminate E]. destruct (own_flag i t u) as [[t' k] s1] eqn:F. injection E as <-. apply K. cbn. destruct (own_quiet _ _ _ _ _ _ F) as (_ & -> & _). reflexivity.
  - destruct (nth_error (s_threads u) i) as [t|]; [|discriminate E]. destruct (t_pc t); try discriminate E. injection E as <-. apply K. reflexivity.
  - destruct (nth_error (s_threads u) i) as [t|]; [|discriminate E]. destruct (t_pc t); try discriminate E. destruct (t_flag t); [|discriminate E]. injection E as <-. apply K. reflexivity.
  - destruct (nth_error (s_threads u) i) as [t|]; [|discriminate E]. destruct (t_pc t); try discriminate E. injection E as <-. apply K. reflexivity.
  - destruct (idle i u) as [t|]; [|discriminate E]. destruct (own_flag i t u) as [[t' k] s1] eqn:F. injection E as <-. apply K. cbn. destruct (own_quiet _ _ _ _ _ _ F) as (_ & -> & _). reflexivity.
  - injection E as <-. apply K. reflexivity.
  - destruct (idle i u) as [t|]; [|discriminate E]. destruct isp; [injection E as <-; apply K; reflexivity|].
    destruct (own_flag i t u) as [[t' k] s1] eqn:F. injection E as <-. apply K. cbn. destruct (own_quiet _ _ _ _ _ _ F) as (_ & -> & _). reflexivity.
  - destruct (idle i u) as [t|]; [|discriminate E]. destruct (t_saved t) as [|[[|] b] rr]; [discriminate E|injection E as <-; apply K; reflexivity|].
    destruct (own_flag i t u) as [[t' k] s1] eqn:F. injection E as <-. apply K. cbn. destruct (own_quiet _ _ _ _ _ _ F) as (_ & -> & _). reflexivity.
  - destruct (s_jobs u g) eqn:X; [discriminate E|]. injection E as <-. apply K. cbn. destruct (Nat.eqb_spec h g); [congruence|reflexivity].
  - destruct (Nat.eq_dec g h) as [->|G].
    + rewrite J1 in E. destruct (j_todo j) as [|a rr] eqn:T; [discriminate E|].
      assert (P : prog = (done ++ [a]) ++ rr) by (rewrite <- app_assoc; exact J3).
      destruct a as [b|k b| |tid k]; injection E as <-; (split; [exact R'|]); cbn; rewrite Nat.eqb_refl; eexists; eexists; (split; [reflexivity|]); cbn;
        (split; [exact J2|]); (split; [exact P|]).
      * split; [intros X; apply in_app_or in X; destruct X as [X|[X|[]]]; [auto|discriminate X]|]. rewrite loads_app, app_nil_r. exact J5'.
      * split; [intros X; apply in_app_or in X; destruct X as [X|[X|[]]]; [auto|discriminate X]|]. rewrite loads_app, app_nil_r. exact J5'.
      * split; [intros _; exists u; split; [exact ML|reflexivity]|]. rewrite loads_app, app_nil_r. exact J5'.
      * split; [intros X; apply in_app_or in X; destruct X as [X|[X|[]]]; [auto|discriminate X]|]. rewrite loads_app. apply Forall2_app; [exact J5'|].
        constructor; [|constructor]. cbn. split; [reflexivity|]. exists u. split; [exact ML|reflexivity].
    + destruct (s_jobs u g) as [q|] eqn:X; [|discriminate E].
      destruct (j_todo q) as [|[b|k b| |tid k] rr]; try discriminate E; injection E as <-; apply K; cbn; (destruct (Nat.eqb_spec h g); [congruence|reflexivity]).
  - destruct (s_jobs u g) as [q|] eqn:X; [|discriminate E]. destruct (j_todo q); [|discriminate E]. injection E as <-. apply K. cbn. destruct (Nat.eqb_spec h g); [congruence|reflexivity].
Qed.
Lemma so_far_run h r prog s0 ls : forall pre u u', so_far h r prog s0 pre u -> run ls u = Some u' -> ~ In (Answer h) ls -> so_far h r prog s0 (pre ++ ls) u'.
Proof.
  induction ls as [|l ls IH]; intros pre u u' F E N; cbn [run] in E.
  - injection E as <-. rewrite app_nil_r. exact F.
  - destruct (step l u) as [v|] eqn:E1; [|discriminate E]. change (l :: ls) with ([l] ++ ls). rewrite app_assoc.
    refine (IH _ _ _ (so_far_step _ _ _ _ _ _ _ _ F E1 _) E _); intros X; apply N; [left; auto|right; exact X].
Qed.
Lemma reported_true h r ls s s1 : ~ In (Answer h) ls -> run (handling h r ls) s = Some s1 ->
  exists p ts, (exists log, s_log s1 = log ++ [(h, r, (p, ts))]) /\
    (exists u, moment (Begin h r :: ls) s u /\ s_proc u = p) /\
    Forall2 (fun tk tb => fst tb = fst tk /\ exists u, moment (Begin h r :: ls) s u /\ flag (snd tk) u = snd tb) (s_map s) ts.
Proof.
  intros N E. unfold handling in E. change (Begin h r :: ls ++ [Answer h]) with ([Begin h r] ++ ls ++ [Answer h]) in E. rewrite run_app in E.
  destruct (run [Begin h r] s) as [sb|] eqn:EB; [|discriminate E]. rewrite run_app in E. destruct (run ls sb) as [s2|] eqn:R; [|discriminate E].
  assert (F : so_far h r (program r (s_map s)) s [Begin h r] sb).
  { split; [exact EB|]. cbn [run step] in EB. destruct (s_jobs s h) eqn:J; [discriminate EB|]. injection EB as <-. cbn. rewrite Nat.eqb_refl.
    eexists. exists []. split; [reflexivity|]. cbn. split; [reflexivity|]. split; [reflexivity|]. split; [intros []|constructor]. }
  apply (so_far_run _ _ _ _ _ _ _ _ F R) in N. destruct N as [RR (j & done & J1 & J2 & J3 & J4 & J5)].
  cbn [run] in E. destruct (step (Answer h) s2) as [s3|] eqn:EA; [|discriminate E]. injection E as <-. cbn [step] in EA. rewrite J1 in EA.
  destruct (j_todo j) eqn:T; [|discriminate EA]. injection EA as <-. rewrite app_nil_r in J3.
  exists (fst (j_reply j)), (snd (j_reply j)). split.
  - exists (s_log s2). cbn. rewrite J2. destruct (j_reply j); reflexivity.
  - split.
    + apply J4. rewrite <- J3. unfold program. apply in_or_app. right. left. reflexivity.
    + assert (L : loads done = s_map s).
      { rewrite <- J3. unfold program. rewrite loads_app, loads_stores.
        cbn. clear. induction (s_map s) as [|[t k] m IH]; cbn; congruence. }
      rewrite <- L. exact J5.
Qed.

Lemma reported ls0 s h r ls s1 : run ls0 state0 = Some s -> ~ In (Answer h) ls -> run (handling h r ls) s = Some s1 ->
  exists p ts, (exists log, s_log s1 = log ++ [(h, r, (p, ts))]) /\
    (exists u, moment (Begin h r :: ls) s u /\ s_proc u = p) /\
    NoDup (map fst ts) /\
    (forall tid b, In (tid, b) ts -> exists i t u, nth_error (s_threads s) i = Some t /\ t_live t = true /\ known t /\ t_id t = tid /\ moment (Begin h r :: ls) s u /\ thread_on u i = b) /\
    (forall i t, nth_error (s_threads s) i = Some t -> t_live t = true -> known t -> In (t_id t) (map fst ts)).
Proof.
  intros R0 N E. destruct (good_run _ _ _ good0 R0) as [GM GK GI GL GJ]. destruct (reported_true h r ls s s1 N E) as (p & ts & A & B & C).
  assert (K : map fst ts = map fst (s_map s)) by (clear - C; induction C as [|x y m l [H _] C IH]; cbn; congruence).
  exists p, ts. split; [exact A|]. split; [exact B|]. split; [rewrite K; exact GK|]. split.
  - intros tid b I0. assert (X : exists k, In (tid, k) (s_map s) /\ exists u, moment (Begin h r :: ls) s u /\ flag k u = b).
    { clear - C I0. induction C as [|[t k] [t' b'] m l (H & u & U & V) C IH]; [destruct I0|]. cbn in *. destruct I0 as [E|I0].
      - injection E as -> ->. subst t. eauto 6.
      - destruct (IH I0) as (k' & K1 & K2). eauto. }
    destruct X as (k & X & u & U & V). apply GM in X. destruct X as [i X]. unfold cores in X. rewrite nth_error_map in X.
    destruct (nth_error (s_threads s) i) as [t|] eqn:NT; [|discriminate X]. cbn in X. injection X as X1 X2 X3. exists i, t, u.
    split; [exact NT|]. split; [exact X2|]. split; [unfold known; congruence|]. split; [exact X1|]. split; [exact U|].
    destruct U as (a & c & Ea & Ra). destruct (grown_run _ _ _ Ra) as ([G _] & _).
    destruct (G i (t_id t) (t_live t) (t_flag t) (nth_cores _ _ _ NT)) as (b' & f' & N' & F1 & _). unfold cores in N'. rewrite nth_error_map in N'.
    unfold thread_on. destruct (nth_error (s_threads u) i) as [t2|]; [|discriminate N']. cbn in N'. injection N' as I1 I2 I3. rewrite I3, F1, X3 by congruence. exact V.
  - intros i t NT L KN. rewrite K. destruct (t_flag t) as [k|] eqn:F; [|destruct (KN F)]. apply (in_map fst _ (t_id t, k)). apply GM. exists i.
    rewrite (nth_cores _ _ _ NT). unfold core. rewrite L, F. reflexivity.
Qed.
