(** Proofs about inherited descriptors. *)
From Coq Require Import List Arith Bool Lia.
Import ListNotations.
From Verif Require Import UnixSystem_model UnixSystem_proofs Inherit_model Inherit_spec.

Lemma obj_eqb_eq a b : obj_eqb a b = true <-> a = b.
Proof. destruct a, b; cbn; rewrite ?Nat.eqb_eq; split; intros H; try discriminate H; congruence. Qed.
Lemma obj_eqb_refl a : obj_eqb a a = true.
Proof. now apply obj_eqb_eq. Qed.

Definition holds (w : world) (p : nat) (o : obj) : Prop := exists x, nth_error (w_procs w) p = Some x /\ In o (p_fds x).

Lemma has_in o p : has o p = true <-> In o (p_fds p).
Proof.
  unfold has. rewrite existsb_exists. split; [intros (y & H & E); apply obj_eqb_eq in E; now subst|intros H; exists o; split; [exact H|apply obj_eqb_refl]].
Qed.
Lemma held_holds o w : held o w = true <-> exists p, holds w p o.
Proof.
  unfold held. rewrite existsb_exists. split.
  - intros (x & H & E). apply has_in in E. apply In_nth_error in H. destruct H as [p H]. exists p, x. auto.
  - intros (p & x & H & E). exists x. split; [eapply nth_error_In; eauto|now apply has_in].
Qed.
Lemma held_false o w : held o w = false <-> forall p, ~ holds w p o.
Proof. rewrite <- not_true_iff_false, held_holds. split; [intros H p K; apply H; now exists p|intros H [p K]; exact (H p K)]. Qed.

(** ** What the steps do to the processes *)
Lemma nth_set_nth {A} (l : list A) i x j : nth_error (set_nth i x l) j = if i =? j then match nth_error l i with Some _ => Some x | None => None end else nth_error l j.
Proof.
  destruct (Nat.eqb_spec i j) as [<-|N].
  - destruct (nth_error l i) as [y|] eqn:E; [apply set_nth_same; now apply nth_error_lt in E|]. apply nth_error_None. rewrite set_nth_length. now apply nth_error_None.
  - now apply set_nth_other; auto.
Qed.
Lemma nth_app_one {A} (l : list A) x j : nth_error (l ++ [x]) j = if j =? length l then Some x else nth_error l j.
Proof.
  destruct (Nat.eqb_spec j (length l)) as [->|N].
  - rewrite nth_error_app2, Nat.sub_diag by lia. reflexivity.
  - destruct (lt_dec j (length l)) as [L|L]; [now apply nth_error_app1|]. rewrite (proj2 (nth_error_None l j)) by lia. apply nth_error_None. rewrite app_length. cbn. lia.
Qed.

(** Adding a process. *)
Section Added.
  Variables (w w' : world) (x : proc).
  Hypothesis E : w_procs w' = w_procs w ++ [x].
  Lemma add_holds p o : holds w' p o <-> holds w p o \/ (p = length (w_procs w) /\ In o (p_fds x)).
  Proof.
    unfold holds. rewrite E. setoid_rewrite nth_app_one. destruct (Nat.eqb_spec p (length (w_procs w))) as [->|N]; split.
    - intros (y & H & K). right. split; [reflexivity|]. now injection H as <-.
    - intros [(y & H & K)|(_ & K)]; [apply nth_error_lt in H; lia|]. exists x. auto.
    - intros (y & H & K). left. exists y. auto.
    - intros [(y & H & K)|(H & _)]; [|contradiction]. exists y. auto.
  Qed.
  Lemma add_alive p : alive w' p = if p =? length (w_procs w) then p_alive x else alive w p.
  Proof. unfold alive. rewrite E, nth_app_one. destruct (p =? length (w_procs w)); reflexivity. Qed.
  Lemma add_descends q p : descends w q p -> descends w' q p.
  Proof.
    induction 1 as [|p y p' H HP _ IH]; [apply self|]. apply (child w' q p y p'); auto. rewrite E, nth_app_one. destruct (Nat.eqb_spec p (length (w_procs w))) as [->|N]; [apply nth_error_lt in H; lia|exact H].
  Qed.
End Added.

(** Changing a process, which keeps its parent. *)
Section Changed.
  Variables (w w' : world) (q : nat) (x y : proc).
  Hypothesis HN : nth_error (w_procs w) q = Some x.
  Hypothesis E : w_procs w' = set_nth q y (w_procs w).
  Hypothesis HP : p_parent y = p_parent x.
  Lemma set_holds p o : holds w' p o <-> (p = q /\ In o (p_fds y)) \/ (p <> q /\ holds w p o).
  Proof.
    unfold holds. rewrite E. setoid_rewrite nth_set_nth. rewrite HN. destruct (Nat.eqb_spec q p) as [<-|N]; split.
    - intros (z & H & K). left. injection H as <-. auto.
    - intros [(_ & K)|(H & _)]; [|contradiction]. exists y. auto.
    - intros H. right. auto.
    - intros [(H & _)|(_ & H)]; [subst; contradiction|exact H].
  Qed.
  Lemma set_alive p : alive w' p = if q =? p then p_alive y else alive w p.
  Proof. unfold alive. rewrite E, nth_set_nth, HN. destruct (q =? p); reflexivity. Qed.
  Lemma set_descends r p : descends w r p -> descends w' r p.
  Proof.
    induction 1 as [|p z p' H HZ _ IH]; [apply self|]. destruct (Nat.eq_dec q p) as [<-|N].
    - apply (child w' r q y p'); auto; [rewrite E, nth_set_nth, Nat.eqb_refl, HN; reflexivity|]. rewrite HP. assert (z = x) by congruence. now subst.
    - apply (child w' r p z p'); auto. rewrite E, set_nth_other by auto. exact H.
  Qed.
End Changed.

Lemma same_holds w w' : w_procs w' = w_procs w -> forall p o, holds w' p o <-> holds w p o.
Proof. intros E p o. unfold holds. now rewrite E. Qed.

(** ** The invariant *)
Record inv (w : world) : Prop := {
  i_alive : forall p o, holds w p o -> alive w p = true;
  i_server : forall l s, nth_error (w_servers w) l = Some s -> s_maker s < length (w_procs w);
  i_conn : forall c y, nth_error (w_conns w) c = Some y -> c_server y < length (w_servers w) /\ c_client y < length (w_procs w);
  i_lst : forall p l, holds w p (Listener l) -> exists s, nth_error (w_servers w) l = Some s /\ descends w (s_maker s) p;
  i_cl : forall p c, holds w p (ClientEnd c) -> exists y, nth_error (w_conns w) c = Some y /\ descends w (c_client y) p;
  i_sv : forall p c, holds w p (ServerEnd c) -> exists y s, nth_error (w_conns w) c = Some y /\ nth_error (w_servers w) (c_server y) = Some s /\ descends w (s_maker s) p;
  i_up : forall l s, nth_error (w_servers w) l = Some s -> alive w (s_maker s) = true -> (holds w (s_maker s) (Listener l) <-> s_up s = true);
  i_open : forall c y, nth_error (w_conns w) c = Some y -> alive w (c_client y) = true -> (holds w (c_client y) (ClientEnd c) <-> c_open y = true);
  i_taken : forall c y s, nth_error (w_conns w) c = Some y -> nth_error (w_servers w) (c_server y) = Some s -> alive w (s_maker s) = true ->
    (holds w (s_maker s) (ServerEnd c) <-> c_stage y = Taken /\ s_up s = true);
  i_closed : forall c y, nth_error (w_conns w) c = Some y -> c_stage y = Closed -> held (ClientEnd c) w = false;
  i_uniq : forall l s l' s', nth_error (w_servers w) l = Some s -> nth_error (w_servers w) l' = Some s' -> s_pid s = s_pid s' ->
    held (Listener l) w = true -> held (Listener l') w = true -> l = l';
}.

Lemma inv0 : inv world0.
Proof.
  assert (N : forall (A : Type) i (x : A), nth_error [] i = Some x -> False) by (intros A [|i] x H; discriminate H).
  constructor; cbn [w_procs w_servers w_conns world0]; intros; exfalso;
    repeat match goal with H : nth_error [] _ = Some _ |- _ => exact (N _ _ _ H) | H : holds world0 _ _ |- _ => destruct H as (z & H & _); cbn [w_procs world0] in H end.
Qed.

Lemma bound_none pid w : bound pid w = None -> forall l s, nth_error (w_servers w) l = Some s -> held (Listener l) w = true -> s_pid s <> pid.
Proof.
  intros E l s HN HH K. unfold bound in E. eapply find_none with (x := l) in E; [|apply in_seq; apply nth_error_lt in HN; lia].
  rewrite HN, HH, K, Nat.eqb_refl in E. discriminate E.
Qed.
Lemma bound_some pid w l : bound pid w = Some l -> exists s, nth_error (w_servers w) l = Some s /\ s_pid s = pid /\ held (Listener l) w = true.
Proof.
  intros E. unfold bound in E. apply find_some in E. destruct E as [_ E]. destruct (nth_error (w_servers w) l) as [s|]; [|discriminate E]. apply andb_prop in E. destruct E as [E1 E2]. apply Nat.eqb_eq in E1. exists s. auto.
Qed.
Lemma bound_is w pid l s : inv w -> nth_error (w_servers w) l = Some s -> s_pid s = pid -> held (Listener l) w = true -> bound pid w = Some l.
Proof.
  intros HI HN HP HH. destruct (bound pid w) as [l'|] eqn:E; [|exfalso; exact (bound_none _ _ E _ _ HN HH HP)].
  apply bound_some in E. destruct E as (s' & HN' & HP' & HH'). f_equal. eapply i_uniq; eauto. congruence.
Qed.
Lemma alive_lt w p : alive w p = true -> p < length (w_procs w).
Proof. unfold alive. destruct (nth_error (w_procs w) p) eqn:E; [intros _; now apply nth_error_lt in E|discriminate]. Qed.
Lemma alive_some w p : alive w p = true -> exists x, nth_error (w_procs w) p = Some x /\ p_alive x = true.
Proof. unfold alive. destruct (nth_error (w_procs w) p) as [x|]; [intros H; exists x; auto|discriminate]. Qed.

(** A process takes a descriptor or gives some up. *)
Lemma fds_set w p x f : nth_error (w_procs w) p = Some x -> fds p f w = set_nth p (with_fds f x) (w_procs w).
Proof. unfold fds. intros ->. reflexivity. Qed.
Section Fds.
  Variables (w w' : world) (q : nat) (f : list obj -> list obj).
  Hypothesis HA : alive w q = true.
  Hypothesis E : w_procs w' = fds q f w.
  Lemma fds_alive p : alive w' p = alive w p.
  Proof.
    destruct (alive_some _ _ HA) as (x & HN & Hx). rewrite (fds_set _ _ _ _ HN) in E. rewrite (set_alive w w' q x _ HN E). destruct (Nat.eqb_spec q p) as [<-|]; [|reflexivity]. cbn. rewrite Hx. now rewrite HA.
  Qed.
  Lemma fds_descends r p : descends w r p -> descends w' r p.
  Proof. destruct (alive_some _ _ HA) as (x & HN & Hx). rewrite (fds_set _ _ _ _ HN) in E. apply (set_descends w w' q x _ HN E). reflexivity. Qed.
  Lemma fds_length : length (w_procs w') = length (w_procs w).
  Proof. destruct (alive_some _ _ HA) as (x & HN & Hx). rewrite (fds_set _ _ _ _ HN) in E. rewrite E. apply set_nth_length. Qed.
End Fds.
Lemma take_holds w w' q o0 : alive w q = true -> w_procs w' = fds q (cons o0) w -> forall p o, holds w' p o <-> holds w p o \/ (p = q /\ o = o0).
Proof.
  intros HA E p o. destruct (alive_some _ _ HA) as (x & HN & Hx). rewrite (fds_set _ _ _ _ HN) in E. rewrite (set_holds w w' q x _ HN E). cbn [with_fds p_fds In]. split.
  - intros [(-> & [H|H])|(_ & H)]; [right; auto|left; exists x; auto|left; exact H].
  - intros [H|(-> & ->)]; [|left; auto]. destruct (Nat.eq_dec p q) as [->|N]; [|right; auto]. destruct H as (z & H & K). left. split; [reflexivity|]. right. assert (z = x) by congruence. now subst.
Qed.
Lemma give_holds w w' q g : alive w q = true -> w_procs w' = fds q (filter g) w -> forall p o, holds w' p o <-> holds w p o /\ (p = q -> g o = true).
Proof.
  intros HA E p o. destruct (alive_some _ _ HA) as (x & HN & Hx). rewrite (fds_set _ _ _ _ HN) in E. rewrite (set_holds w w' q x _ HN E). cbn [with_fds p_fds]. rewrite filter_In. split.
  - intros [(-> & H & K)|(N & H)]; [split; [exists x; auto|auto]|split; [exact H|contradiction]].
  - intros (H & K). destruct (Nat.eq_dec p q) as [->|N]; [|right; auto]. destruct H as (z & H & L). assert (z = x) by congruence. subst. left. auto.
Qed.

(** Nothing is held that was not held by someone before, except what is new. *)
Lemma held_back w w' o : (forall p, holds w' p o -> exists p', holds w p' o) -> held o w' = true -> held o w = true.
Proof. intros H K. apply held_holds in K. destruct K as [p K]. apply held_holds. exact (H p K). Qed.
Lemma held_gone w w' o : (forall p, holds w' p o -> exists p', holds w p' o) -> held o w = false -> held o w' = false.
Proof. intros H K. destruct (held o w') eqn:E; [|reflexivity]. rewrite (held_back w w' o H E) in K. discriminate K. Qed.

(** ** Every step keeps the invariant *)
Ltac keep := first [assumption | eassumption | reflexivity | lia].

Lemma inv_start w pid w' : inv w -> step (Start pid) w = Some w' -> inv w'.
Proof.
  intros HI E. cbn [step] in E. destruct (free pid w); [|discriminate E]. injection E as <-. set (x := Build_proc _ _ _ _). set (w' := Build_world _ _ _).
  assert (EP : w_procs w' = w_procs w ++ [x]) by reflexivity. pose proof (add_holds w w' x EP) as HH. pose proof (add_alive w w' x EP) as HA. pose proof (add_descends w w' x EP) as HD.
  assert (HE : forall p o, holds w' p o <-> holds w p o) by (intros p o; rewrite HH; cbn [x p_fds In]; tauto).
  assert (HL : forall p, p < length (w_procs w) -> alive w' p = alive w p) by (intros p L; rewrite HA; destruct (Nat.eqb_spec p (length (w_procs w))); [lia|reflexivity]).
  assert (LE : length (w_procs w') = S (length (w_procs w))) by (rewrite EP, app_length; cbn; lia).
  assert (HF : forall o, held o w' = held o w).
  { intros o. apply eq_true_iff_eq. rewrite !held_holds. setoid_rewrite HE. tauto. }
  destruct HI as [I1 I2 I3 I4 I5 I6 I7 I8 I9 I10 I11]. constructor; change (w_servers w') with (w_servers w); change (w_conns w') with (w_conns w).
  - intros p o H. apply HE in H. pose proof (I1 _ _ H) as A. rewrite HL; [exact A|now apply alive_lt].
  - intros l s H. specialize (I2 l s H). lia.
  - intros c y H. specialize (I3 c y H). lia.
  - intros p l H. apply HE in H. destruct (I4 _ _ H) as (s & H1 & H2). exists s. auto.
  - intros p l H. apply HE in H. destruct (I5 _ _ H) as (s & H1 & H2). exists s. auto.
  - intros p l H. apply HE in H. destruct (I6 _ _ H) as (y & s & H1 & H2 & H3). exists y, s. auto.
  - intros l s H A. rewrite HL in A by (eapply I2; eauto). rewrite HE. auto.
  - intros c y H A. rewrite HL in A by (eapply I3; eauto). rewrite HE. auto.
  - intros c y s H H2 A. rewrite HL in A by (eapply I2; eauto). rewrite HE. eauto.
  - intros c y H K. rewrite HF. eauto.
  - intros l s l' s' H1 H2 K. rewrite !HF. eauto.
Qed.

Lemma inv_fork w q pid w' : inv w -> step (Fork q pid) w = Some w' -> inv w'.
Proof.
  intros HI E. cbn [step] in E. destruct (nth_error (w_procs w) q) as [z|] eqn:HN; [|discriminate E]. destruct (p_alive z && free pid w); [|discriminate E]. injection E as <-. set (x := Build_proc _ _ _ _). set (w' := Build_world _ _ _).
  assert (EP : w_procs w' = w_procs w ++ [x]) by reflexivity. pose proof (add_holds w w' x EP) as HH. pose proof (add_alive w w' x EP) as HA. pose proof (add_descends w w' x EP) as HD.
  assert (HE : forall p o, holds w' p o <-> holds w p o \/ (p = length (w_procs w) /\ holds w q o)).
  { intros p o. rewrite HH. cbn [x p_fds]. split; intros [H|(-> & H)]; auto; right; split; auto; [exists z; auto|]. destruct H as (z' & H & K). assert (z' = z) by congruence. now subst. }
  assert (HL : forall p, p < length (w_procs w) -> alive w' p = alive w p) by (intros p L; rewrite HA; destruct (Nat.eqb_spec p (length (w_procs w))); [lia|reflexivity]).
  assert (LE : length (w_procs w') = S (length (w_procs w))) by (rewrite EP, app_length; cbn; lia).
  assert (HO : forall p o, p < length (w_procs w) -> (holds w' p o <-> holds w p o)) by (intros p o L; rewrite HE; split; [intros [H|(-> & _)]; [exact H|lia]|auto]).
  assert (HF : forall o, held o w' = held o w).
  { intros o. apply eq_true_iff_eq. rewrite !held_holds. setoid_rewrite HE. split; [intros (p & [H|(_ & H)]); eauto|intros (p & H); eauto]. }
  assert (HC : forall r, descends w r q -> descends w' r (length (w_procs w))).
  { intros r H. apply (child w' r (length (w_procs w)) x q); [rewrite EP, nth_app_one, Nat.eqb_refl; reflexivity|reflexivity|now apply HD]. }
  destruct HI as [I1 I2 I3 I4 I5 I6 I7 I8 I9 I10 I11]. constructor; change (w_servers w') with (w_servers w); change (w_conns w') with (w_conns w).
  - intros p o H. apply HE in H. destruct H as [H|(-> & H)]; [|rewrite HA, Nat.eqb_refl; reflexivity]. pose proof (I1 _ _ H) as A. rewrite HL; [exact A|now apply alive_lt].
  - intros l s H. specialize (I2 l s H). lia.
  - intros c y H. specialize (I3 c y H). lia.
  - intros p l H. apply HE in H. destruct H as [H|(-> & H)]; destruct (I4 _ _ H) as (s & H1 & H2); exists s; auto.
  - intros p l H. apply HE in H. destruct H as [H|(-> & H)]; destruct (I5 _ _ H) as (s & H1 & H2); exists s; auto.
  - intros p l H. apply HE in H. destruct H as [H|(-> & H)]; destruct (I6 _ _ H) as (y & s & H1 & H2 & H3); exists y, s; auto.
  - intros l s H A. rewrite HL in A by (eapply I2; eauto). rewrite HO by (eapply I2; eauto). auto.
  - intros c y H A. rewrite HL in A by (eapply I3; eauto). rewrite HO by (eapply I3; eauto). auto.
  - intros c y s H H2 A. rewrite HL in A by (eapply I2; eauto). rewrite HO by (eapply I2; eauto). eauto.
  - intros c y H K. rewrite HF. eauto.
  - intros l s l' s' H1 H2 K. rewrite !HF. eauto.
Qed.

Lemma inv_end w q w' : inv w -> step (End q) w = Some w' -> inv w'.
Proof.
  intros HI E. cbn [step] in E. destruct (nth_error (w_procs w) q) as [z|] eqn:HN; [|discriminate E]. destruct (p_alive z) eqn:AZ; [|discriminate E]. injection E as <-. set (x := Build_proc _ _ _ _). set (w' := Build_world _ _ _).
  assert (EP : w_procs w' = set_nth q x (w_procs w)) by reflexivity. pose proof (set_holds w w' q z x HN EP) as HH. pose proof (set_alive w w' q z x HN EP) as HA. pose proof (set_descends w w' q z x HN EP eq_refl) as HD.
  assert (HE : forall p o, holds w' p o <-> p <> q /\ holds w p o) by (intros p o; rewrite HH; cbn [x p_fds In]; tauto).
  assert (HL : forall p, alive w' p = true -> p <> q /\ alive w p = true).
  { intros p. rewrite HA. destruct (Nat.eqb_spec q p) as [<-|N]; [discriminate|auto]. }
  assert (LE : length (w_procs w') = length (w_procs w)) by (rewrite EP; apply set_nth_length).
  assert (HF : forall o, held o w' = true -> held o w = true).
  { intros o. rewrite !held_holds. setoid_rewrite HE. intros (p & _ & H). eauto. }
  destruct HI as [I1 I2 I3 I4 I5 I6 I7 I8 I9 I10 I11]. constructor; change (w_servers w') with (w_servers w); change (w_conns w') with (w_conns w).
  - intros p o H. apply HE in H. destruct H as (N & H). rewrite HA. destruct (Nat.eqb_spec q p); [congruence|]. eauto.
  - intros l s H. rewrite LE. eauto.
  - intros c y H. rewrite LE. eauto.
  - intros p l H. apply HE in H. destruct H as (_ & H). destruct (I4 _ _ H) as (s & H1 & H2); exists s; auto.
  - intros p l H. apply HE in H. destruct H as (_ & H). destruct (I5 _ _ H) as (s & H1 & H2); exists s; auto.
  - intros p l H. apply HE in H. destruct H as (_ & H). destruct (I6 _ _ H) as (y & s & H1 & H2 & H3); exists y, s; auto.
  - intros l s H A. apply HL in A. destruct A as (N & A). rewrite HE, <- (I7 _ _ H A). tauto.
  - intros c y H A. apply HL in A. destruct A as (N & A). rewrite HE, <- (I8 _ _ H A). tauto.
  - intros c y s H H2 A. apply HL in A. destruct A as (N & A). rewrite HE, <- (I9 _ _ _ H H2 A). tauto.
  - intros c y H K. specialize (I10 _ _ H K). destruct (held (ClientEnd c) w') eqn:X; [|reflexivity]. apply HF in X. congruence.
  - intros l s l' s' H1 H2 K K1 K2. eauto.
Qed.

Lemma inv_serve w q w' : inv w -> step (Serve q) w = Some w' -> inv w'.
Proof.
  intros HI E. cbn [step] in E. destruct (nth_error (w_procs w) q) as [z|] eqn:HN; [|discriminate E]. destruct (p_alive z) eqn:AZ; [|discriminate E].
  destruct (bound (p_pid z) w) as [l0|] eqn:EB; injection E as <-; [exact HI|]. set (n := length (w_servers w)). set (s0 := Build_server _ _ _). set (w' := Build_world _ _ _).
  assert (AQ : alive w q = true) by (unfold alive; now rewrite HN).
  assert (EP : w_procs w' = fds q (cons (Listener n)) w) by reflexivity.
  pose proof (take_holds w w' q _ AQ EP) as HE. pose proof (fds_alive w w' q _ AQ EP) as HA. pose proof (fds_descends w w' q _ AQ EP) as HD. pose proof (fds_length w w' q _ AQ EP) as LE.
  assert (ES : forall l, nth_error (w_servers w') l = if l =? n then Some s0 else nth_error (w_servers w) l) by (intros l; apply nth_app_one).
  assert (EL : length (w_servers w') = S n) by (cbn [w' w_servers]; rewrite app_length; cbn; fold n; lia).
  destruct HI as [I1 I2 I3 I4 I5 I6 I7 I8 I9 I10 I11].
  assert (NL : forall p, ~ holds w p (Listener n)) by (intros p H; destruct (I4 _ _ H) as (s & K & _); apply nth_error_lt in K; fold n in K; lia).
  assert (SO : forall l s, nth_error (w_servers w) l = Some s -> nth_error (w_servers w') l = Some s).
  { intros l s H. rewrite ES. destruct (Nat.eqb_spec l n) as [->|]; [|exact H]. apply nth_error_lt in H. fold n in H. lia. }
  assert (SB : forall c y s, nth_error (w_conns w) c = Some y -> nth_error (w_servers w') (c_server y) = Some s -> nth_error (w_servers w) (c_server y) = Some s).
  { intros c y s H. rewrite ES. destruct (I3 _ _ H) as [L _]. fold n in L. destruct (Nat.eqb_spec (c_server y) n); [lia|auto]. }
  assert (HF : forall o, o <> Listener n -> held o w' = held o w).
  { intros o N. apply eq_true_iff_eq. rewrite !held_holds. setoid_rewrite HE. split; [intros (p & [H|(_ & H)]); [eauto|contradiction]|intros (p & H); eauto]. }
  assert (HO : forall p o, o <> Listener n -> (holds w' p o <-> holds w p o)) by (intros p o N; rewrite HE; split; [intros [H|(_ & H)]; [exact H|contradiction]|auto]).
  constructor; change (w_conns w') with (w_conns w).
  - intros p o H. apply HE in H. rewrite HA. destruct H as [H|(-> & _)]; eauto.
  - intros l s. rewrite ES, LE. destruct (l =? n); [|apply I2]. intros H. injection H as <-. cbn. now apply alive_lt.
  - intros c y H. rewrite LE, EL. destruct (I3 _ _ H) as [L1 L2]. fold n in L1. lia.
  - intros p l H. apply HE in H. destruct H as [H|(-> & H)]; [destruct (I4 _ _ H) as (s & H1 & H2); exists s; auto|]. injection H as ->. exists s0. rewrite ES, Nat.eqb_refl. split; [reflexivity|apply self].
  - intros p l H. rewrite HO in H by discriminate. destruct (I5 _ _ H) as (s & H1 & H2); exists s; auto.
  - intros p l H. rewrite HO in H by discriminate. destruct (I6 _ _ H) as (y & s & H1 & H2 & H3); exists y, s; auto.
  - intros l s. rewrite ES, HA, HE. destruct (Nat.eqb_spec l n) as [->|N].
    + intros H. injection H as <-. intros _. cbn. split; auto.
    + intros H A. rewrite <- (I7 _ _ H A). split; [intros [K|(_ & K)]; [exact K|congruence]|auto].
  - intros c y H. rewrite HA, HO by discriminate. eauto.
  - intros c y s H H2. rewrite HA, HO by discriminate. eauto.
  - intros c y H K. rewrite HF by discriminate. eauto.
  - intros l s l' s'. rewrite !ES. destruct (Nat.eqb_spec l n) as [->|N], (Nat.eqb_spec l' n) as [->|N']; intros H1 H2 K K1 K2; [reflexivity| | |].
    + exfalso. injection H1 as <-. cbn in K. rewrite HF in K2 by congruence. exact (bound_none _ _ EB _ _ H2 K2 (eq_sym K)).
    + exfalso. injection H2 as <-. cbn in K. rewrite HF in K1 by congruence. exact (bound_none _ _ EB _ _ H1 K1 K).
    + rewrite HF in K1, K2 by congruence. eauto.
Qed.

Lemma inv_connect w q pid w' : inv w -> step (Connect q pid) w = Some w' -> inv w'.
Proof.
  intros HI E. cbn [step] in E. destruct (alive w q) eqn:AQ; [|discriminate E]. unfold connecting in E. destruct (bound pid w) as [l0|] eqn:EB; [|injection E as <-; exact HI].
  destruct (full l0 w); [discriminate E|]. injection E as <-. set (n := length (w_conns w)). set (y0 := Build_conn _ _ _ _). set (w' := Build_world _ _ _).
  assert (EP : w_procs w' = fds q (cons (ClientEnd n)) w) by reflexivity.
  pose proof (take_holds w w' q _ AQ EP) as HE. pose proof (fds_alive w w' q _ AQ EP) as HA. pose proof (fds_descends w w' q _ AQ EP) as HD. pose proof (fds_length w w' q _ AQ EP) as LE.
  assert (ES : forall l, nth_error (w_conns w') l = if l =? n then Some y0 else nth_error (w_conns w) l) by (intros l; apply nth_app_one).
  destruct HI as [I1 I2 I3 I4 I5 I6 I7 I8 I9 I10 I11].
  assert (NL : forall p, ~ holds w p (ClientEnd n)) by (intros p H; destruct (I5 _ _ H) as (s & K & _); apply nth_error_lt in K; fold n in K; lia).
  assert (NS : forall p, ~ holds w p (ServerEnd n)) by (intros p H; destruct (I6 _ _ H) as (y & s & K & _); apply nth_error_lt in K; fold n in K; lia).
  assert (SO : forall l s, nth_error (w_conns w) l = Some s -> nth_error (w_conns w') l = Some s).
  { intros l s H. rewrite ES. destruct (Nat.eqb_spec l n) as [->|]; [|exact H]. apply nth_error_lt in H. fold n in H. lia. }
  assert (HF : forall o, o <> ClientEnd n -> held o w' = held o w).
  { intros o N. apply eq_true_iff_eq. rewrite !held_holds. setoid_rewrite HE. split; [intros (p & [H|(_ & H)]); [eauto|contradiction]|intros (p & H); eauto]. }
  assert (HO : forall p o, o <> ClientEnd n -> (holds w' p o <-> holds w p o)) by (intros p o N; rewrite HE; split; [intros [H|(_ & H)]; [exact H|contradiction]|auto]).
  apply bound_some in EB. destruct EB as (s0 & B1 & B2 & B3).
  constructor; change (w_servers w') with (w_servers w).
  - intros p o H. apply HE in H. rewrite HA. destruct H as [H|(-> & _)]; eauto.
  - intros l s H. rewrite LE. eauto.
  - intros c y. rewrite ES, LE. destruct (c =? n); [|apply I3]. intros H. injection H as <-. cbn. split; [eapply nth_error_lt; eauto|now apply alive_lt].
  - intros p l H. rewrite HO in H by discriminate. destruct (I4 _ _ H) as (s & H1 & H2); exists s; auto.
  - intros p l H. apply HE in H. destruct H as [H|(-> & H)]; [destruct (I5 _ _ H) as (s & H1 & H2); exists s; auto|]. injection H as ->. exists y0. rewrite ES, Nat.eqb_refl. split; [reflexivity|apply self].
  - intros p l H. rewrite HO in H by discriminate. destruct (I6 _ _ H) as (y & s & H1 & H2 & H3); exists y, s; auto.
  - intros c y H. rewrite HA, HO by discriminate. eauto.
  - intros l s. rewrite ES, HA, HE. destruct (Nat.eqb_spec l n) as [->|N].
    + intros H. injection H as <-. intros _. cbn. split; auto.
    + intros H A. rewrite <- (I8 _ _ H A). split; [intros [K|(_ & K)]; [exact K|congruence]|auto].
  - intros c y s. rewrite ES. intros H H2. rewrite HA, HO by discriminate. destruct (Nat.eqb_spec c n) as [->|N]; [|eauto]. injection H as <-. cbn. intros _. split; [intros K; destruct (NS _ K)|intros [K _]; discriminate K].
  - intros c y. rewrite ES. destruct (Nat.eqb_spec c n) as [->|N]; [intros H K; injection H as <-; discriminate K|]. intros H K. rewrite HF by congruence. eauto.
  - intros l s l' s' H1 H2 K. rewrite !HF by discriminate. eauto.
Qed.

Lemma inv_accept w c w' : inv w -> step (Accept c) w = Some w' -> inv w'.
Proof.
  intros HI E. cbn [step] in E. destruct (nth_error (w_conns w) c) as [y0|] eqn:HC; [|discriminate E]. destruct (c_stage y0) eqn:ST; try discriminate E. destruct (nth_error (w_servers w) (c_server y0)) as [s0|] eqn:HS; [|discriminate E].
  destruct (s_up s0 && alive w (s_maker s0)) eqn:EA; [|discriminate E]. apply andb_prop in EA. destruct EA as [EU AQ]. injection E as <-. set (y1 := set_stage Taken y0). set (w' := Build_world _ _ _). set (q := s_maker s0) in *.
  assert (EP : w_procs w' = fds q (cons (ServerEnd c)) w) by reflexivity.
  pose proof (take_holds w w' q _ AQ EP) as HE. pose proof (fds_alive w w' q _ AQ EP) as HA. pose proof (fds_descends w w' q _ AQ EP) as HD. pose proof (fds_length w w' q _ AQ EP) as LE.
  assert (ES : forall l, nth_error (w_conns w') l = if c =? l then Some y1 else nth_error (w_conns w) l) by (intros l; cbn [w' w_conns]; rewrite nth_set_nth, HC; reflexivity).
  destruct HI as [I1 I2 I3 I4 I5 I6 I7 I8 I9 I10 I11].
  assert (SO : forall l s, nth_error (w_conns w) l = Some s -> exists s', nth_error (w_conns w') l = Some s' /\ c_server s' = c_server s /\ c_client s' = c_client s).
  { intros l s H. rewrite ES. destruct (Nat.eqb_spec c l) as [<-|]; [|eauto]. exists y1. assert (s = y0) by congruence. subst. auto. }
  assert (HF : forall o, o <> ServerEnd c -> held o w' = held o w).
  { intros o N. apply eq_true_iff_eq. rewrite !held_holds. setoid_rewrite HE. split; [intros (p & [H|(_ & H)]); [eauto|contradiction]|intros (p & H); eauto]. }
  assert (HO : forall p o, o <> ServerEnd c -> (holds w' p o <-> holds w p o)) by (intros p o N; rewrite HE; split; [intros [H|(_ & H)]; [exact H|contradiction]|auto]).
  constructor; change (w_servers w') with (w_servers w).
  - intros p o H. apply HE in H. rewrite HA. destruct H as [H|(-> & _)]; eauto.
  - intros l s H. rewrite LE. eauto.
  - intros d y. rewrite ES, LE. destruct (c =? d); [|apply I3]. intros H. injection H as <-. exact (I3 _ _ HC).
  - intros p l H. rewrite HO in H by discriminate. destruct (I4 _ _ H) as (s & H1 & H2); exists s; auto.
  - intros p l H. rewrite HO in H by discriminate. destruct (I5 _ _ H) as (s & H1 & H2). destruct (SO _ _ H1) as (s' & K1 & K2 & K3). exists s'. rewrite K3. auto.
  - intros p l H. apply HE in H. destruct H as [H|(-> & H)].
    + destruct (I6 _ _ H) as (y & s & H1 & H2 & H3). destruct (SO _ _ H1) as (s' & K1 & K2 & K3). exists s', s. rewrite K2. auto.
    + injection H as ->. exists y1, s0. rewrite ES, Nat.eqb_refl. split; [reflexivity|]. split; [exact HS|apply self].
  - intros d y H. rewrite HA, HO by discriminate. eauto.
  - intros d y. rewrite ES. destruct (Nat.eqb_spec c d) as [<-|N]; intros H; [injection H as <-|]; rewrite HA, HO by discriminate; [exact (I8 _ _ HC)|eauto].
  - intros d y s. rewrite ES. destruct (Nat.eqb_spec c d) as [<-|N]; intros H H2; rewrite HA, HE.
    + injection H as <-. cbn in H2. assert (s = s0) by congruence. subst. intros _. cbn. split; auto.
    + intros A. rewrite <- (I9 _ _ _ H H2 A). split; [intros [K|(_ & K)]; [exact K|congruence]|auto].
  - intros d y. rewrite ES. destruct (Nat.eqb_spec c d) as [<-|N]; intros H K; [injection H as <-; discriminate K|]. rewrite HF by discriminate. eauto.
  - intros l s l' s' H1 H2 K. rewrite !HF by discriminate. eauto.
Qed.

Lemma without_filter o : without o = filter (fun x => negb (obj_eqb o x)).
Proof. reflexivity. Qed.

Lemma inv_hangup w c w' : inv w -> step (Hangup c) w = Some w' -> inv w'.
Proof.
  intros HI E. cbn [step] in E. destruct (nth_error (w_conns w) c) as [y0|] eqn:HC; [|discriminate E]. destruct (c_stage y0) eqn:ST; try discriminate E. destruct (nth_error (w_servers w) (c_server y0)) as [s0|] eqn:HS; [|discriminate E].
  destruct (s_up s0 && alive w (s_maker s0) && negb (held (ClientEnd c) w)) eqn:EA; [|discriminate E]. apply andb_prop in EA. destruct EA as [EA EC]. apply andb_prop in EA. destruct EA as [EU AQ]. apply negb_true_iff in EC.
  injection E as <-. set (y1 := set_stage Closed y0). set (w' := Build_world _ _ _). set (q := s_maker s0) in *.
  assert (EP : w_procs w' = fds q (filter (fun x => negb (obj_eqb (ServerEnd c) x))) w) by reflexivity.
  pose proof (give_holds w w' q _ AQ EP) as HE. pose proof (fds_alive w w' q _ AQ EP) as HA. pose proof (fds_descends w w' q _ AQ EP) as HD. pose proof (fds_length w w' q _ AQ EP) as LE.
  assert (ES : forall l, nth_error (w_conns w') l = if c =? l then Some y1 else nth_error (w_conns w) l) by (intros l; cbn [w' w_conns]; rewrite nth_set_nth, HC; reflexivity).
  destruct HI as [I1 I2 I3 I4 I5 I6 I7 I8 I9 I10 I11].
  assert (SO : forall l s, nth_error (w_conns w) l = Some s -> exists s', nth_error (w_conns w') l = Some s' /\ c_server s' = c_server s /\ c_client s' = c_client s).
  { intros l s H. rewrite ES. destruct (Nat.eqb_spec c l) as [<-|]; [|eauto]. exists y1. assert (s = y0) by congruence. subst. auto. }
  assert (HO : forall p o, o <> ServerEnd c -> (holds w' p o <-> holds w p o)).
  { intros p o N. rewrite HE. split; [tauto|]. intros H. split; [exact H|]. intros _. apply negb_true_iff. destruct (obj_eqb (ServerEnd c) o) eqn:X; [|reflexivity]. apply obj_eqb_eq in X. congruence. }
  assert (HF : forall o, o <> ServerEnd c -> held o w' = held o w).
  { intros o N. apply eq_true_iff_eq. rewrite !held_holds. split; intros (p & H); exists p; now apply HO. }
  constructor; change (w_servers w') with (w_servers w).
  - intros p o H. apply HE in H. rewrite HA. destruct H as [H _]. eauto.
  - intros l s H. rewrite LE. eauto.
  - intros d y. rewrite ES, LE. destruct (c =? d); [|apply I3]. intros H. injection H as <-. exact (I3 _ _ HC).
  - intros p l H. rewrite HO in H by discriminate. destruct (I4 _ _ H) as (s & H1 & H2); exists s; auto.
  - intros p l H. rewrite HO in H by discriminate. destruct (I5 _ _ H) as (s & H1 & H2). destruct (SO _ _ H1) as (s' & K1 & K2 & K3). exists s'. rewrite K3. auto.
  - intros p l H. apply HE in H. destruct H as [H _].
    destruct (I6 _ _ H) as (y & s & H1 & H2 & H3). destruct (SO _ _ H1) as (s' & K1 & K2 & K3). exists s', s. rewrite K2. auto.
  - intros d y H. rewrite HA, HO by discriminate. eauto.
  - intros d y. rewrite ES. destruct (Nat.eqb_spec c d) as [<-|N]; intros H; [injection H as <-|]; rewrite HA, HO by discriminate; [exact (I8 _ _ HC)|eauto].
  - intros d y s. rewrite ES. destruct (Nat.eqb_spec c d) as [<-|N]; intros H H2; rewrite HA.
    + injection H as <-. cbn in H2. assert (s = s0) by congruence. subst. intros _. rewrite HE. cbn. split; [intros [_ K]; specialize (K eq_refl); rewrite Nat.eqb_refl in K; discriminate K|intros [K _]; discriminate K].
    + intros A. rewrite HO by congruence. eauto.
  - intros d y. rewrite ES, HF by discriminate. destruct (Nat.eqb_spec c d) as [<-|N]; intros H K; [exact EC|]. eauto.
  - intros l s l' s' H1 H2 K. rewrite !HF by discriminate. eauto.
Qed.

Lemma inv_destroy w l0 w' : inv w -> step (Destroy l0) w = Some w' -> inv w'.
Proof.
  intros HI E. cbn [step] in E. destruct (nth_error (w_servers w) l0) as [s0|] eqn:HS; [|discriminate E].
  destruct (s_up s0 && alive w (s_maker s0)) eqn:EA; [|discriminate E]. apply andb_prop in EA. destruct EA as [EU AQ].
  injection E as <-. set (s1 := Build_server _ _ _). set (w' := Build_world _ _ _). set (q := s_maker s0) in *.
  assert (EP : w_procs w' = fds q (filter (fun o => negb (of_server w l0 o))) w) by reflexivity.
  pose proof (give_holds w w' q _ AQ EP) as HE. pose proof (fds_alive w w' q _ AQ EP) as HA. pose proof (fds_descends w w' q _ AQ EP) as HD. pose proof (fds_length w w' q _ AQ EP) as LE.
  assert (ES : forall l, nth_error (w_servers w') l = if l0 =? l then Some s1 else nth_error (w_servers w) l) by (intros l; cbn [w' w_servers]; rewrite nth_set_nth, HS; reflexivity).
  assert (EL : length (w_servers w') = length (w_servers w)) by apply set_nth_length.
  destruct HI as [I1 I2 I3 I4 I5 I6 I7 I8 I9 I10 I11].
  assert (SO : forall l s, nth_error (w_servers w) l = Some s -> exists s', nth_error (w_servers w') l = Some s' /\ s_maker s' = s_maker s).
  { intros l s H. rewrite ES. destruct (Nat.eqb_spec l0 l) as [<-|]; [|eauto]. exists s1. assert (s = s0) by congruence. subst. auto. }
  assert (SB : forall l s, nth_error (w_servers w') l = Some s -> exists s', nth_error (w_servers w) l = Some s' /\ s_maker s' = s_maker s /\ s_pid s' = s_pid s).
  { intros l s. rewrite ES. destruct (Nat.eqb_spec l0 l) as [<-|]; [|eauto]. intros H. injection H as <-. exists s0. auto. }
  assert (HO : forall p o, of_server w l0 o = false -> (holds w' p o <-> holds w p o)).
  { intros p o N. rewrite HE, N. cbn. tauto. }
  assert (HB : forall o, held o w' = true -> held o w = true) by (intros o; rewrite !held_holds; intros (p & H); apply HE in H; exists p; tauto).
  constructor; change (w_conns w') with (w_conns w).
  - intros p o H. apply HE in H. rewrite HA. destruct H as [H _]. eauto.
  - intros l s H. rewrite LE. destruct (SB _ _ H) as (s' & K & <- & _). eauto.
  - intros d y H. rewrite LE, EL. eauto.
  - intros p l H. apply HE in H. destruct H as [H _]. destruct (I4 _ _ H) as (s & H1 & H2). destruct (SO _ _ H1) as (s' & K1 & K2). exists s'. rewrite K2. auto.
  - intros p l H. apply HE in H. destruct H as [H _]. destruct (I5 _ _ H) as (s & H1 & H2). exists s. auto.
  - intros p l H. apply HE in H. destruct H as [H _]. destruct (I6 _ _ H) as (y & s & H1 & H2 & H3). destruct (SO _ _ H2) as (s' & K1 & K2). exists y, s'. rewrite K2. auto.
  - intros l s. rewrite ES. destruct (Nat.eqb_spec l0 l) as [<-|N]; intros H; rewrite HA.
    + injection H as <-. intros _. rewrite HE. cbn. split; [intros [_ K]; specialize (K eq_refl); rewrite Nat.eqb_refl in K; discriminate K|discriminate].
    + rewrite HO by (cbn; apply Nat.eqb_neq; auto). eauto.
  - intros d y H. rewrite HA, HO by reflexivity. eauto.
  - intros d y s H. rewrite ES. destruct (Nat.eqb_spec l0 (c_server y)) as [HL|N]; intros H2; rewrite HA.
    + injection H2 as <-. intros _. rewrite HE. cbn [of_server]. rewrite H, <- HL, Nat.eqb_refl. cbn. split; [intros [_ K]; specialize (K eq_refl); discriminate K|intros [_ K]; discriminate K].
    + rewrite HO by (cbn [of_server]; rewrite H; apply Nat.eqb_neq; auto). eauto.
  - intros d y H K. specialize (I10 _ _ H K). destruct (held (ClientEnd d) w') eqn:X; [|reflexivity]. apply HB in X. congruence.
  - intros l s l' s' H1 H2 K K1 K2. destruct (SB _ _ H1) as (t & L1 & _ & L2). destruct (SB _ _ H2) as (t' & L1' & _ & L2'). eapply I11; eauto. congruence.
Qed.

Lemma inv_leave w c w' : inv w -> step (Leave c) w = Some w' -> inv w'.
Proof.
  intros HI E. cbn [step] in E. destruct (nth_error (w_conns w) c) as [y0|] eqn:HC; [|discriminate E]. destruct (c_open y0 && alive w (c_client y0)) eqn:EA; [|discriminate E]. apply andb_prop in EA. destruct EA as [EU AQ].
  injection E as <-. set (y1 := Build_conn _ _ _ _). set (w' := Build_world _ _ _). set (q := c_client y0) in *.
  assert (EP : w_procs w' = fds q (filter (fun x => negb (obj_eqb (ClientEnd c) x))) w) by reflexivity.
  pose proof (give_holds w w' q _ AQ EP) as HE. pose proof (fds_alive w w' q _ AQ EP) as HA. pose proof (fds_descends w w' q _ AQ EP) as HD. pose proof (fds_length w w' q _ AQ EP) as LE.
  assert (ES : forall l, nth_error (w_conns w') l = if c =? l then Some y1 else nth_error (w_conns w) l) by (intros l; cbn [w' w_conns]; rewrite nth_set_nth, HC; reflexivity).
  destruct HI as [I1 I2 I3 I4 I5 I6 I7 I8 I9 I10 I11].
  assert (SO : forall l s, nth_error (w_conns w) l = Some s -> exists s', nth_error (w_conns w') l = Some s' /\ c_server s' = c_server s /\ c_client s' = c_client s).
  { intros l s H. rewrite ES. destruct (Nat.eqb_spec c l) as [<-|]; [|eauto]. exists y1. assert (s = y0) by congruence. subst. auto. }
  assert (SB : forall l s, nth_error (w_conns w') l = Some s -> exists s', nth_error (w_conns w) l = Some s' /\ c_server s' = c_server s /\ c_client s' = c_client s /\ c_stage s' = c_stage s).
  { intros l s. rewrite ES. destruct (Nat.eqb_spec c l) as [<-|]; [|eauto]. intros H. injection H as <-. exists y0. auto. }
  assert (HO : forall p o, o <> ClientEnd c -> (holds w' p o <-> holds w p o)).
  { intros p o N. rewrite HE. split; [tauto|]. intros H. split; [exact H|]. intros _. apply negb_true_iff. destruct (obj_eqb (ClientEnd c) o) eqn:X; [|reflexivity]. apply obj_eqb_eq in X. congruence. }
  assert (HF : forall o, o <> ClientEnd c -> held o w' = held o w).
  { intros o N. apply eq_true_iff_eq. rewrite !held_holds. split; intros (p & H); exists p; now apply HO. }
  assert (HB : forall o, held o w' = true -> held o w = true) by (intros o; rewrite !held_holds; intros (p & H); apply HE in H; exists p; tauto).
  constructor; change (w_servers w') with (w_servers w).
  - intros p o H. apply HE in H. rewrite HA. destruct H as [H _]. eauto.
  - intros l s H. rewrite LE. eauto.
  - intros d y H. rewrite LE. destruct (SB _ _ H) as (y' & K1 & <- & <- & _). eauto.
  - intros p l H. rewrite HO in H by discriminate. destruct (I4 _ _ H) as (s & H1 & H2); exists s; auto.
  - intros p l H. apply HE in H. destruct H as [H _]. destruct (I5 _ _ H) as (s & H1 & H2). destruct (SO _ _ H1) as (s' & K1 & K2 & K3). exists s'. rewrite K3. auto.
  - intros p l H. rewrite HO in H by discriminate.
    destruct (I6 _ _ H) as (y & s & H1 & H2 & H3). destruct (SO _ _ H1) as (s' & K1 & K2 & K3). exists s', s. rewrite K2. auto.
  - intros d y H. rewrite HA, HO by discriminate. eauto.
  - intros d y. rewrite ES. destruct (Nat.eqb_spec c d) as [<-|N]; intros H; rewrite HA.
    + injection H as <-. intros _. rewrite HE. cbn. split; [intros [_ K]; specialize (K eq_refl); rewrite Nat.eqb_refl in K; discriminate K|discriminate].
    + rewrite HO by congruence. eauto.
  - intros d y s H H2. rewrite HA, HO by discriminate. destruct (SB _ _ H) as (y' & K1 & K2 & K3 & K4). rewrite <- K2 in H2. intros A. rewrite (I9 _ _ _ K1 H2 A), K4. tauto.
  - intros d y H K. destruct (SB _ _ H) as (y' & K1 & K2 & K3 & K4). rewrite <- K4 in K. specialize (I10 _ _ K1 K). destruct (held (ClientEnd d) w') eqn:X; [|reflexivity]. apply HB in X. congruence.
  - intros l s l' s' H1 H2 K. rewrite !HF by discriminate. eauto.
Qed.

Lemma inv_step a w w' : inv w -> step a w = Some w' -> inv w'.
Proof.
  destruct a as [pid|p pid|p|p|p pid|c|c|l|c]; [apply inv_start|apply inv_fork|apply inv_end|apply inv_serve|apply inv_connect|apply inv_accept|apply inv_hangup|apply inv_destroy|apply inv_leave].
Qed.
Lemma inv_run h : forall w w', inv w -> run h w = Some w' -> inv w'.
Proof. induction h as [|a h IH]; intros w w' HI E; cbn in E; [now injection E as <-|]. destruct (step a w) as [w1|] eqn:E1; [|discriminate E]. apply (IH w1 w'); auto. eapply inv_step; eauto. Qed.

(** ** What discovery lists *)
Lemma discovered_in w pid : In pid (discovered w) <-> exists l s, nth_error (w_servers w) l = Some s /\ s_pid s = pid /\ held (Listener l) w = true.
Proof.
  unfold discovered. rewrite in_flat_map. split.
  - intros (l & _ & H). destruct (nth_error (w_servers w) l) as [s|] eqn:E; [|destruct H]. destruct (held (Listener l) w) eqn:K; [|destruct H]. destruct H as [H|[]]. exists l, s. auto.
  - intros (l & s & H1 & H2 & H3). exists l. split; [apply in_seq; apply nth_error_lt in H1; lia|]. rewrite H1, H3. left. exact H2.
Qed.
Lemma nodup_flat {A} (f : nat -> list A) : forall l, NoDup l -> (forall i, f i = [] \/ exists v, f i = [v]) -> (forall i j v, In v (f i) -> In v (f j) -> i = j) -> NoDup (flat_map f l).
Proof.
  induction l as [|i l IH]; intros ND H1 H2; cbn; [apply NoDup_nil|]. inversion ND as [|? ? N1 N2]; subst. destruct (H1 i) as [->|(v & Ev)]; [now apply IH|]. rewrite Ev. cbn. apply NoDup_cons; [|now apply IH].
  intros K. apply in_flat_map in K. destruct K as (j & Kj & Kv). apply N1. rewrite (H2 i j v); auto. rewrite Ev. now left.
Qed.
Lemma discovered_once w : inv w -> NoDup (discovered w).
Proof.
  intros HI. apply nodup_flat; [apply seq_NoDup| |].
  - intros l. destruct (nth_error (w_servers w) l) as [s|]; [|now left]. destruct (held (Listener l) w); [right; eauto|now left].
  - intros i j v Hi Hj. destruct (nth_error (w_servers w) i) as [s|] eqn:E; [|destruct Hi]. destruct (nth_error (w_servers w) j) as [s'|] eqn:E'; [|destruct Hj].
    destruct (held (Listener i) w) eqn:K; [|destruct Hi]. destruct (held (Listener j) w) eqn:K'; [|destruct Hj]. destruct Hi as [Hi|[]], Hj as [Hj|[]]. eapply i_uniq; eauto. congruence.
Qed.

Theorem listed_once h w : run h world0 = Some w -> NoDup (discovered w).
Proof. intros E. apply discovered_once. exact (inv_run h _ _ inv0 E). Qed.

Theorem listed_heirs h w pid : run h world0 = Some w -> In pid (discovered w) ->
  exists l s p, nth_error (w_servers w) l = Some s /\ s_pid s = pid /\ alive w p = true /\ descends w (s_maker s) p.
Proof.
  intros E H. pose proof (inv_run h _ _ inv0 E) as HI. apply discovered_in in H. destruct H as (l & s & H1 & H2 & H3). apply held_holds in H3. destruct H3 as [p H3].
  destruct (i_lst _ HI _ _ H3) as (s' & K1 & K2). assert (s' = s) by congruence. subst s'. exists l, s, p. repeat split; auto. eapply i_alive; eauto.
Qed.

Theorem listed_exactly h w pid : run h world0 = Some w -> (forall l s, nth_error (w_servers w) l = Some s -> childless w (s_maker s)) ->
  (In pid (discovered w) <-> exists l, serves w l pid).
Proof.
  intros E HC. pose proof (inv_run h _ _ inv0 E) as HI. rewrite discovered_in. split.
  - intros (l & s & H1 & H2 & H3). apply held_holds in H3. destruct H3 as [p H3]. destruct (i_lst _ HI _ _ H3) as (s' & K1 & K2). assert (s' = s) by congruence. subst s'.
    assert (p = s_maker s) by (eapply HC; eauto; eapply i_alive; eauto). subst p. pose proof (i_alive _ HI _ _ H3) as A. exists l, s. repeat split; auto. now apply (i_up _ HI _ _ H1 A).
  - intros (l & s & H1 & H2 & H3 & H4). exists l, s. repeat split; auto. apply held_holds. exists (s_maker s). now apply (i_up _ HI _ _ H1 H4).
Qed.

(** ** What the ends of a connection notice *)
Theorem client_notices h w c x s : run h world0 = Some w -> nth_error (w_conns w) c = Some x -> nth_error (w_servers w) (c_server x) = Some s -> childless w (s_maker s) ->
  client_there w c -> (server_end w c = true <-> serves w (c_server x) (s_pid s)).
Proof.
  intros E HX HS HC HT. pose proof (inv_run h _ _ inv0 E) as HI. destruct HT as (x' & T1 & T2 & T3). assert (x' = x) by congruence. subst x'. unfold server_end. rewrite HX.
  assert (NC : c_stage x <> Closed).
  { intros K. pose proof (i_closed _ HI _ _ HX K) as F. rewrite held_false in F. apply (F (c_client x)). now apply (i_open _ HI _ _ HX T3). }
  assert (SV : serves w (c_server x) (s_pid s) <-> s_up s = true /\ alive w (s_maker s) = true).
  { split; [intros (s' & K1 & _ & K2 & K3); assert (s' = s) by congruence; subst; auto|intros (K1 & K2); exists s; auto]. }
  rewrite SV. destruct (c_stage x) eqn:ST; [| |contradiction].
  - rewrite held_holds. split.
    + intros [p H]. destruct (i_lst _ HI _ _ H) as (s' & K1 & K2). assert (s' = s) by congruence. subst s'. pose proof (i_alive _ HI _ _ H) as A. assert (p = s_maker s) by (apply HC; auto). subst p. split; [|exact A]. now apply (i_up _ HI _ _ HS A).
    + intros [U A]. exists (s_maker s). now apply (i_up _ HI _ _ HS A).
  - rewrite held_holds. split.
    + intros [p H]. destruct (i_sv _ HI _ _ H) as (y & s' & K0 & K1 & K2). assert (y = x) by congruence. subst y. assert (s' = s) by congruence. subst s'. pose proof (i_alive _ HI _ _ H) as A. assert (p = s_maker s) by (apply HC; auto). subst p.
      split; [|exact A]. now apply (i_taken _ HI _ _ _ HX HS A).
    + intros [U A]. exists (s_maker s). now apply (i_taken _ HI _ _ _ HX HS A).
Qed.

Theorem server_notices h w c x : run h world0 = Some w -> nth_error (w_conns w) c = Some x -> childless w (c_client x) -> (held (ClientEnd c) w = true <-> client_there w c).
Proof.
  intros E HX HC. pose proof (inv_run h _ _ inv0 E) as HI. rewrite held_holds. split.
  - intros [p H]. destruct (i_cl _ HI _ _ H) as (y & K1 & K2). assert (y = x) by congruence. subst y. pose proof (i_alive _ HI _ _ H) as A. assert (p = c_client x) by (apply HC; auto). subst p. exists x. repeat split; auto. now apply (i_open _ HI _ _ HX A).
  - intros (x' & T1 & T2 & T3). assert (x' = x) by congruence. subst x'. exists (c_client x). now apply (i_open _ HI _ _ HX T3).
Qed.

(** ** A name is free for its process *)
Lemma pid_once h : forall w, run h world0 = Some w -> forall p q x y, nth_error (w_procs w) p = Some x -> nth_error (w_procs w) q = Some y ->
  p_alive x = true -> p_alive y = true -> p_pid x = p_pid y -> p = q.
Proof.
  intros w E. revert E. cut (forall h w0 w, (forall p q x y, nth_error (w_procs w0) p = Some x -> nth_error (w_procs w0) q = Some y ->
    p_alive x = true -> p_alive y = true -> p_pid x = p_pid y -> p = q) -> run h w0 = Some w -> forall p q x y, nth_error (w_procs w) p = Some x -> nth_error (w_procs w) q = Some y ->
    p_alive x = true -> p_alive y = true -> p_pid x = p_pid y -> p = q).
  { intros G E. apply (G h world0 w); [|exact E]. intros [|p] q x y H; discriminate H. }
  clear. induction h as [|a h IH]; intros w0 w U E; cbn in E; [now injection E as <-|]. destruct (step a w0) as [w1|] eqn:E1; [|discriminate E]. apply (IH w1); [|exact E]. clear IH E w h.
  assert (SAME : w_procs w1 = w_procs w0 -> forall p q x y, nth_error (w_procs w1) p = Some x -> nth_error (w_procs w1) q = Some y -> p_alive x = true -> p_alive y = true -> p_pid x = p_pid y -> p = q) by (intros ->; exact U).
  assert (ADD : forall z, w_procs w1 = w_procs w0 ++ [z] -> free (p_pid z) w0 = true -> forall p q x y, nth_error (w_procs w1) p = Some x -> nth_error (w_procs w1) q = Some y -> p_alive x = true -> p_alive y = true -> p_pid x = p_pid y -> p = q).
  { intros z EP F p q x y Hp Hq Ap Aq P. rewrite EP, nth_app_one in Hp, Hq. apply negb_true_iff in F.
    assert (NF : forall i v, nth_error (w_procs w0) i = Some v -> p_alive v = true -> p_pid v <> p_pid z).
    { intros i v Hi Av Pv. assert (T : existsb (fun p0 => p_alive p0 && (p_pid p0 =? p_pid z)) (w_procs w0) = true) by (apply existsb_exists; exists v; split; [eapply nth_error_In; eauto|rewrite Av, Pv, Nat.eqb_refl; reflexivity]). congruence. }
    destruct (Nat.eqb_spec p (length (w_procs w0))), (Nat.eqb_spec q (length (w_procs w0))); [congruence| | |eauto].
    - exfalso. injection Hp as <-. exact (NF _ _ Hq Aq (eq_sym P)).
    - exfalso. injection Hq as <-. exact (NF _ _ Hp Ap P). }
  assert (SET : forall i z v, nth_error (w_procs w0) i = Some z -> w_procs w1 = set_nth i v (w_procs w0) -> p_pid v = p_pid z -> (p_alive v = true -> p_alive z = true) ->
    forall p q x y, nth_error (w_procs w1) p = Some x -> nth_error (w_procs w1) q = Some y -> p_alive x = true -> p_alive y = true -> p_pid x = p_pid y -> p = q).
  { intros i z v Hi EP P1 P2. assert (B : forall p x, nth_error (w_procs w1) p = Some x -> p_alive x = true -> exists x0, nth_error (w_procs w0) p = Some x0 /\ p_alive x0 = true /\ p_pid x0 = p_pid x).
    { intros p x. rewrite EP, nth_set_nth, Hi. destruct (Nat.eqb_spec i p) as [<-|]; [intros H A; injection H as <-; exists z; auto|intros H A; exists x; auto]. }
    intros p q x y Hp Hq Ap Aq P. destruct (B _ _ Hp Ap) as (x0 & K1 & K2 & K3). destruct (B _ _ Hq Aq) as (y0 & L1 & L2 & L3). eapply U; eauto. congruence. }
  assert (FDS : forall i f, w_procs w1 = fds i f w0 -> forall p q x y, nth_error (w_procs w1) p = Some x -> nth_error (w_procs w1) q = Some y -> p_alive x = true -> p_alive y = true -> p_pid x = p_pid y -> p = q).
  { intros i f EP. unfold fds in EP. destruct (nth_error (w_procs w0) i) as [z|] eqn:Hi; [|now apply SAME]. apply (SET i z (with_fds f z) Hi EP); [reflexivity|auto]. }
  destruct a as [pid|p pid|p|p|p pid|c|c|l|c]; cbn [step] in E1.
  - destruct (free pid w0) eqn:F; [|discriminate E1]. injection E1 as <-. eapply ADD; [reflexivity|exact F].
  - destruct (nth_error (w_procs w0) p) as [z|]; [|discriminate E1]. destruct (p_alive z && free pid w0) eqn:F; [|discriminate E1]. apply andb_prop in F. injection E1 as <-. eapply ADD; [reflexivity|apply F].
  - destruct (nth_error (w_procs w0) p) as [z|] eqn:Hp; [|discriminate E1]. destruct (p_alive z); [|discriminate E1]. injection E1 as <-. eapply SET; [exact Hp|reflexivity|reflexivity|discriminate].
  - destruct (nth_error (w_procs w0) p) as [z|]; [|discriminate E1]. destruct (p_alive z); [|discriminate E1]. destruct (bound (p_pid z) w0); injection E1 as <-; [apply SAME; reflexivity|eapply FDS; reflexivity].
  - destruct (alive w0 p); [|discriminate E1]. destruct (connecting pid w0); try discriminate E1; injection E1 as <-; [apply SAME; reflexivity|eapply FDS; reflexivity].
  - destruct (nth_error (w_conns w0) c) as [y|]; [|discriminate E1]. destruct (c_stage y); try discriminate E1. destruct (nth_error (w_servers w0) (c_server y)) as [s|]; [|discriminate E1]. destruct (s_up s && alive w0 (s_maker s)); [|discriminate E1]. injection E1 as <-. eapply FDS; reflexivity.
  - destruct (nth_error (w_conns w0) c) as [y|]; [|discriminate E1]. destruct (c_stage y); try discriminate E1. destruct (nth_error (w_servers w0) (c_server y)) as [s|]; [|discriminate E1]. destruct (s_up s && alive w0 (s_maker s) && negb (held (ClientEnd c) w0)); [|discriminate E1]. injection E1 as <-. eapply FDS; reflexivity.
  - destruct (nth_error (w_servers w0) l) as [s|]; [|discriminate E1]. destruct (s_up s && alive w0 (s_maker s)); [|discriminate E1]. injection E1 as <-. eapply FDS; reflexivity.
  - destruct (nth_error (w_conns w0) c) as [y|]; [|discriminate E1]. destruct (c_open y && alive w0 (c_client y)); [|discriminate E1]. injection E1 as <-. eapply FDS; reflexivity.
Qed.

(** ** Steps do not bring anything back *)
Record later (w w' : world) : Prop := {
  la_procs : length (w_procs w) <= length (w_procs w');
  la_alive : forall p, p < length (w_procs w) -> alive w' p = true -> alive w p = true;
  la_pid : forall p x, nth_error (w_procs w) p = Some x -> exists x', nth_error (w_procs w') p = Some x' /\ p_pid x' = p_pid x /\ p_parent x' = p_parent x;
  la_server : forall l s, nth_error (w_servers w) l = Some s -> exists s', nth_error (w_servers w') l = Some s' /\ s_pid s' = s_pid s /\ s_maker s' = s_maker s /\ (s_up s' = true -> s_up s = true);
  la_conn : forall c y, nth_error (w_conns w) c = Some y -> exists y', nth_error (w_conns w') c = Some y' /\ c_server y' = c_server y /\ c_client y' = c_client y /\ (c_stage y <> Waiting -> c_stage y' <> Waiting);
}.
Lemma later_refl w : later w w.
Proof. constructor; [lia|auto|intros p x H; exists x; auto|intros l s H; exists s; auto|intros c y H; exists y; auto]. Qed.
Lemma later_trans w1 w2 w3 : later w1 w2 -> later w2 w3 -> later w1 w3.
Proof.
  intros [A1 A2 A3 A4 A5] [B1 B2 B3 B4 B5]. constructor.
  - lia.
  - intros p L H. apply A2; auto. apply B2; auto. lia.
  - intros p x H. destruct (A3 _ _ H) as (x' & K1 & K2 & K3). destruct (B3 _ _ K1) as (x2 & L1 & L2 & L3). exists x2. repeat split; congruence.
  - intros l s H. destruct (A4 _ _ H) as (s' & K1 & K2 & K3 & K4). destruct (B4 _ _ K1) as (s2 & L1 & L2 & L3 & L4). exists s2. repeat split; try congruence. auto.
  - intros l s H. destruct (A5 _ _ H) as (s' & K1 & K2 & K3 & K4). destruct (B5 _ _ K1) as (s2 & L1 & L2 & L3 & L4). exists s2. repeat split; try congruence. auto.
Qed.
Lemma step_later a w w' : step a w = Some w' -> later w w'.
Proof.
  intros E.
  assert (ADD : forall z, w' = {| w_procs := w_procs w ++ [z]; w_servers := w_servers w; w_conns := w_conns w |} -> later w w').
  { intros z ->. constructor; cbn [w_procs w_servers w_conns].
    - rewrite app_length. lia.
    - intros p L. unfold alive. cbn [w_procs]. rewrite nth_error_app1 by exact L. auto.
    - intros p x H. exists x. rewrite nth_error_app1 by (eapply nth_error_lt; eauto). auto.
    - intros l s H. exists s. auto.
    - intros c y H. exists y. auto. }
  assert (SET : forall i z v sv cn, nth_error (w_procs w) i = Some z -> p_pid v = p_pid z -> p_parent v = p_parent z -> (p_alive v = true -> p_alive z = true) ->
    w' = {| w_procs := set_nth i v (w_procs w); w_servers := sv; w_conns := cn |} ->
    (forall l s, nth_error (w_servers w) l = Some s -> exists s', nth_error sv l = Some s' /\ s_pid s' = s_pid s /\ s_maker s' = s_maker s /\ (s_up s' = true -> s_up s = true)) ->
    (forall c y, nth_error (w_conns w) c = Some y -> exists y', nth_error cn c = Some y' /\ c_server y' = c_server y /\ c_client y' = c_client y /\ (c_stage y <> Waiting -> c_stage y' <> Waiting)) -> later w w').
  { intros i z v sv cn Hi P1 P2 P3 -> HS HC. constructor; cbn [w_procs w_servers w_conns]; auto.
    - rewrite set_nth_length. lia.
    - intros p L. unfold alive. cbn [w_procs]. rewrite nth_set_nth, Hi. destruct (Nat.eqb_spec i p) as [<-|]; [rewrite Hi; auto|auto].
    - intros p x H. rewrite nth_set_nth, Hi. destruct (Nat.eqb_spec i p) as [<-|]; [exists v; assert (x = z) by congruence; subst; auto|exists x; auto]. }
  assert (FDS : forall i z f sv cn, nth_error (w_procs w) i = Some z ->
    w' = {| w_procs := fds i f w; w_servers := sv; w_conns := cn |} ->
    (forall l s, nth_error (w_servers w) l = Some s -> exists s', nth_error sv l = Some s' /\ s_pid s' = s_pid s /\ s_maker s' = s_maker s /\ (s_up s' = true -> s_up s = true)) ->
    (forall c y, nth_error (w_conns w) c = Some y -> exists y', nth_error cn c = Some y' /\ c_server y' = c_server y /\ c_client y' = c_client y /\ (c_stage y <> Waiting -> c_stage y' <> Waiting)) -> later w w').
  { intros i z f sv cn Hi E'. rewrite (fds_set _ _ _ _ Hi) in E'. apply (SET i z (with_fds f z) sv cn Hi eq_refl eq_refl); [intros K; exact K|exact E']. }
  assert (SS : forall l s, nth_error (w_servers w) l = Some s -> exists s', nth_error (w_servers w) l = Some s' /\ s_pid s' = s_pid s /\ s_maker s' = s_maker s /\ (s_up s' = true -> s_up s = true)) by (intros l s H; exists s; auto).
  assert (CC : forall c y, nth_error (w_conns w) c = Some y -> exists y', nth_error (w_conns w) c = Some y' /\ c_server y' = c_server y /\ c_client y' = c_client y /\ (c_stage y <> Waiting -> c_stage y' <> Waiting)) by (intros c y H; exists y; auto).
  assert (CS : forall d y1 y2, nth_error (w_conns w) d = Some y1 -> c_server y2 = c_server y1 -> c_client y2 = c_client y1 -> (c_stage y1 <> Waiting -> c_stage y2 <> Waiting) ->
    forall c y, nth_error (w_conns w) c = Some y -> exists y', nth_error (set_nth d y2 (w_conns w)) c = Some y' /\ c_server y' = c_server y /\ c_client y' = c_client y /\ (c_stage y <> Waiting -> c_stage y' <> Waiting)).
  { intros d y1 y2 Hd Q1 Q2 Q3 c y H. rewrite nth_set_nth, Hd. destruct (Nat.eqb_spec d c) as [<-|]; [exists y2; assert (y = y1) by congruence; subst; auto|exists y; auto]. }
  destruct a as [pid|p pid|p|p|p pid|c|c|l|c]; cbn [step] in E.
  - destruct (free pid w) eqn:F; [|discriminate E]. injection E as <-. eapply ADD; reflexivity.
  - destruct (nth_error (w_procs w) p) as [z|]; [|discriminate E]. destruct (p_alive z && free pid w) eqn:F; [|discriminate E]. injection E as <-. eapply ADD; reflexivity.
  - destruct (nth_error (w_procs w) p) as [z|] eqn:Hp; [|discriminate E]. destruct (p_alive z); [|discriminate E]. injection E as <-. eapply SET; [exact Hp| | | |reflexivity|exact SS|exact CC]; cbn; auto; discriminate.
  - destruct (nth_error (w_procs w) p) as [z|] eqn:Hp; [|discriminate E]. destruct (p_alive z); [|discriminate E]. destruct (bound (p_pid z) w); injection E as <-; [apply later_refl|].
    eapply FDS; [exact Hp|reflexivity| |exact CC]; cbn; auto. intros l s H. exists s. rewrite nth_error_app1 by (eapply nth_error_lt; eauto). auto.
  - destruct (alive w p) eqn:A; [|discriminate E]. destruct (alive_some _ _ A) as (z & Hp & _). destruct (connecting pid w); try discriminate E; injection E as <-; [apply later_refl|].
    eapply FDS; [exact Hp|reflexivity|exact SS|]; cbn; auto. intros c y H. exists y. rewrite nth_error_app1 by (eapply nth_error_lt; eauto). auto.
  - destruct (nth_error (w_conns w) c) as [y|] eqn:Hc; [|discriminate E]. destruct (c_stage y) eqn:ST; try discriminate E. destruct (nth_error (w_servers w) (c_server y)) as [s|]; [|discriminate E]. destruct (s_up s && alive w (s_maker s)) eqn:A; [|discriminate E].
    apply andb_prop in A. destruct A as [_ A]. destruct (alive_some _ _ A) as (z & Hp & _). injection E as <-. eapply FDS; [exact Hp|reflexivity|exact SS|]; cbn; auto. eapply CS; eauto; discriminate.
  - destruct (nth_error (w_conns w) c) as [y|] eqn:Hc; [|discriminate E]. destruct (c_stage y) eqn:ST; try discriminate E. destruct (nth_error (w_servers w) (c_server y)) as [s|]; [|discriminate E]. destruct (s_up s && alive w (s_maker s)) eqn:A; [|discriminate E].
    apply andb_prop in A. destruct A as [_ A]. destruct (alive_some _ _ A) as (z & Hp & _). destruct (negb (held (ClientEnd c) w)); [|discriminate E]. injection E as <-. eapply FDS; [exact Hp|reflexivity|exact SS|]; cbn; auto. eapply CS; eauto; discriminate.
  - destruct (nth_error (w_servers w) l) as [s|] eqn:Hs; [|discriminate E]. destruct (s_up s && alive w (s_maker s)) eqn:A; [|discriminate E]. apply andb_prop in A. destruct A as [_ A]. destruct (alive_some _ _ A) as (z & Hp & _). injection E as <-.
    eapply FDS; [exact Hp|reflexivity| |exact CC]; cbn; auto. intros k t H. rewrite nth_set_nth, Hs. destruct (Nat.eqb_spec l k) as [<-|]; [|exists t; auto]. assert (t = s) by congruence. subst. eexists. split; [reflexivity|]. cbn. repeat split; auto. discriminate.
  - destruct (nth_error (w_conns w) c) as [y|] eqn:Hc; [|discriminate E]. destruct (c_open y && alive w (c_client y)) eqn:A; [|discriminate E]. apply andb_prop in A. destruct A as [_ A]. destruct (alive_some _ _ A) as (z & Hp & _). injection E as <-.
    eapply FDS; [exact Hp|reflexivity|exact SS|]; cbn; auto. eapply CS; eauto.
Qed.
Lemma run_later h : forall w w', run h w = Some w' -> later w w'.
Proof. induction h as [|a h IH]; intros w w' E; cbn in E; [injection E as <-; apply later_refl|]. destruct (step a w) as [w1|] eqn:E1; [|discriminate E]. eapply later_trans; [eapply step_later; eauto|eauto]. Qed.

(** ** An heir keeps what it inherited *)
Definition heir (w : world) (k : nat) (o : obj) : Prop :=
  holds w k o /\ match o with
  | Listener l => forall s, nth_error (w_servers w) l = Some s -> s_maker s <> k
  | ClientEnd c => forall y, nth_error (w_conns w) c = Some y -> c_client y <> k
  | ServerEnd c => forall y s, nth_error (w_conns w) c = Some y -> nth_error (w_servers w) (c_server y) = Some s -> s_maker s <> k
  end.
Lemma holds_step a w w' k o : step a w = Some w' -> heir w k o -> alive w' k = true -> holds w' k o.
Proof.
  intros E [H HO] A.
  assert (TAKE : forall q o0 sv cn, alive w q = true -> w' = {| w_procs := fds q (cons o0) w; w_servers := sv; w_conns := cn |} -> holds w' k o).
  { intros q o0 sv cn AQ E'. apply (take_holds w w' q o0 AQ); [now rewrite E'|]. now left. }
  assert (GIVE : forall q g sv cn, alive w q = true -> w' = {| w_procs := fds q (filter g) w; w_servers := sv; w_conns := cn |} -> (k = q -> g o = true) -> holds w' k o).
  { intros q g sv cn AQ E' G. apply (give_holds w w' q g AQ); [now rewrite E'|]. auto. }
  destruct a as [pid|p pid|p|p|p pid|c|c|l|c]; cbn [step] in E.
  - destruct (free pid w) eqn:F; [|discriminate E]. injection E as <-. eapply add_holds; [reflexivity|now left].
  - destruct (nth_error (w_procs w) p) as [z|]; [|discriminate E]. destruct (p_alive z && free pid w) eqn:F; [|discriminate E]. injection E as <-. eapply add_holds; [reflexivity|now left].
  - destruct (nth_error (w_procs w) p) as [z|] eqn:Hp; [|discriminate E]. destruct (p_alive z); [|discriminate E]. injection E as <-. eapply set_holds; [exact Hp|reflexivity|]. right. split; [|exact H]. intros ->.
    unfold alive in A. cbn [w_procs] in A. rewrite nth_set_nth, Nat.eqb_refl, Hp in A. discriminate A.
  - destruct (nth_error (w_procs w) p) as [z|] eqn:Hp; [|discriminate E]. destruct (p_alive z) eqn:AZ; [|discriminate E]. destruct (bound (p_pid z) w); injection E as <-; [exact H|]. eapply TAKE; [|reflexivity]. unfold alive. now rewrite Hp.
  - destruct (alive w p) eqn:AP; [|discriminate E]. destruct (connecting pid w); try discriminate E; injection E as <-; [exact H|]. eapply TAKE; [exact AP|reflexivity].
  - destruct (nth_error (w_conns w) c) as [y|] eqn:Hc; [|discriminate E]. destruct (c_stage y) eqn:ST; try discriminate E. destruct (nth_error (w_servers w) (c_server y)) as [s|]; [|discriminate E]. destruct (s_up s && alive w (s_maker s)) eqn:AM; [|discriminate E].
    apply andb_prop in AM. injection E as <-. eapply TAKE; [apply AM|reflexivity].
  - destruct (nth_error (w_conns w) c) as [y|] eqn:Hc; [|discriminate E]. destruct (c_stage y) eqn:ST; try discriminate E. destruct (nth_error (w_servers w) (c_server y)) as [s|] eqn:Hs; [|discriminate E]. destruct (s_up s && alive w (s_maker s)) eqn:AM; [|discriminate E].
    apply andb_prop in AM. destruct (negb (held (ClientEnd c) w)); [|discriminate E]. injection E as <-. eapply GIVE; [apply AM|reflexivity|]. intros ->. apply negb_true_iff. destruct (obj_eqb (ServerEnd c) o) eqn:X; [|reflexivity]. apply obj_eqb_eq in X. subst o. exfalso. exact (HO _ _ Hc Hs eq_refl).
  - destruct (nth_error (w_servers w) l) as [s|] eqn:Hs; [|discriminate E]. destruct (s_up s && alive w (s_maker s)) eqn:AM; [|discriminate E]. apply andb_prop in AM. injection E as <-. eapply GIVE; [apply AM|reflexivity|]. intros ->. apply negb_true_iff.
    destruct o as [i|i|i]; cbn [of_server]; [|reflexivity|].
    + apply Nat.eqb_neq. intros ->. exact (HO _ Hs eq_refl).
    + destruct (nth_error (w_conns w) i) as [y|] eqn:Hi; [|reflexivity]. apply Nat.eqb_neq. intros K. rewrite <- K in Hs. exact (HO y s eq_refl Hs eq_refl).
  - destruct (nth_error (w_conns w) c) as [y|] eqn:Hc; [|discriminate E]. destruct (c_open y && alive w (c_client y)) eqn:AM; [|discriminate E]. apply andb_prop in AM. injection E as <-. eapply GIVE; [apply AM|reflexivity|]. intros ->. apply negb_true_iff.
    destruct (obj_eqb (ClientEnd c) o) eqn:X; [|reflexivity]. apply obj_eqb_eq in X. subst o. exfalso. exact (HO _ Hc eq_refl).
Qed.
Lemma heir_step a w w' k o : inv w -> step a w = Some w' -> heir w k o -> alive w' k = true -> heir w' k o.
Proof.
  intros HI E HH A. split; [eapply holds_step; eauto|]. destruct HH as [H HO]. pose proof (step_later _ _ _ E) as L. destruct o as [l|c|c].
  - destruct (i_lst _ HI _ _ H) as (s & K1 & _). intros s2 K2. destruct (la_server _ _ L _ _ K1) as (s3 & M1 & _ & M2 & _). assert (s3 = s2) by congruence. subst. rewrite M2. auto.
  - destruct (i_cl _ HI _ _ H) as (y & K1 & _). intros y2 K2. destruct (la_conn _ _ L _ _ K1) as (y3 & M1 & _ & M2 & _). assert (y3 = y2) by congruence. subst. rewrite M2. auto.
  - destruct (i_sv _ HI _ _ H) as (y & s & K1 & K1' & _). intros y2 s2 K2 K2'. destruct (la_conn _ _ L _ _ K1) as (y3 & M1 & M2 & _). assert (y3 = y2) by congruence. subst. rewrite M2 in K2'.
    destruct (la_server _ _ L _ _ K1') as (s3 & N1 & _ & N2 & _). assert (s3 = s2) by congruence. subst. rewrite N2. eauto.
Qed.
Lemma heir_run k o h : forall w w', inv w -> run h w = Some w' -> heir w k o -> alive w' k = true -> heir w' k o.
Proof.
  induction h as [|a h IH]; intros w w' HI E HH A; cbn in E; [now injection E as <-|]. destruct (step a w) as [w1|] eqn:E1; [|discriminate E].
  assert (A1 : alive w1 k = true).
  { apply (la_alive _ _ (run_later _ _ _ E)); [|exact A]. pose proof (la_procs _ _ (step_later _ _ _ E1)). destruct HH as [(z & Hz & _) _]. apply nth_error_lt in Hz. lia. }
  apply (IH w1 w'); auto; [eapply inv_step; eauto|eapply heir_step; eauto].
Qed.
(** A child has all its parent had. *)
Lemma fork_heir w q pid w' o : inv w -> step (Fork q pid) w = Some w' -> holds w q o -> heir w' (length (w_procs w)) o.
Proof.
  intros HI E H. pose proof (inv_fork _ _ _ _ HI E) as HI'. cbn [step] in E. destruct (nth_error (w_procs w) q) as [z|] eqn:HN; [|discriminate E]. destruct (p_alive z && free pid w); [|discriminate E]. injection E as <-.
  destruct H as (z' & H1 & H2). assert (z' = z) by congruence. subst z'. split.
  - eapply add_holds; [reflexivity|]. right. split; [reflexivity|exact H2].
  - destruct o as [l|c|c]; cbn [w_servers w_conns].
    + intros s K. pose proof (i_server _ HI _ _ K). lia.
    + intros y K. pose proof (i_conn _ HI _ _ K). lia.
    + intros y s K K'. pose proof (i_server _ HI _ _ K'). lia.
Qed.

Theorem child_keeps_listed h1 h2 w1 w2 l s cpid : run h1 world0 = Some w1 -> nth_error (w_servers w1) l = Some s -> serves w1 l (s_pid s) ->
  run (Fork (s_maker s) cpid :: h2) w1 = Some w2 -> alive w2 (length (w_procs w1)) = true ->
  In (s_pid s) (discovered w2) /\
  (forall c y, nth_error (w_conns w1) c = Some y -> c_server y = l -> c_stage y = Taken -> server_end w2 c = true).
Proof.
  intros E1 HS SV E2 A. pose proof (inv_run h1 _ _ inv0 E1) as HI. destruct SV as (s' & K1 & _ & K2 & K3). assert (s' = s) by congruence. subst s'. cbn [run] in E2. destruct (step (Fork (s_maker s) cpid) w1) as [w|] eqn:EF; [|discriminate E2].
  pose proof (inv_fork _ _ _ _ HI EF) as HI'. pose proof (later_trans _ _ _ (step_later _ _ _ EF) (run_later _ _ _ E2)) as L. split.
  - apply discovered_in. destruct (la_server _ _ L _ _ HS) as (s2 & M1 & M2 & _). exists l, s2. repeat split; auto. apply held_holds. exists (length (w_procs w1)).
    apply (heir_run _ (Listener l) h2 w w2 HI' E2); [|exact A]. apply (fork_heir w1 (s_maker s) cpid w _ HI EF). now apply (i_up _ HI _ _ HS K3).
  - intros c y HC HL HT. destruct (la_conn _ _ L _ _ HC) as (y2 & M1 & _ & _ & M2). assert (NW : c_stage y2 <> Waiting) by (apply M2; rewrite HT; discriminate).
    assert (T : held (ServerEnd c) w2 = true).
    { apply held_holds. exists (length (w_procs w1)). apply (heir_run _ (ServerEnd c) h2 w w2 HI' E2); [|exact A]. apply (fork_heir w1 (s_maker s) cpid w _ HI EF). subst l. now apply (i_taken _ HI _ _ _ HC HS K3). }
    unfold server_end. rewrite M1. destruct (c_stage y2); [contradiction|exact T|exact T].
Qed.

Theorem child_keeps_client h1 h2 w1 w2 c x cpid : run h1 world0 = Some w1 -> nth_error (w_conns w1) c = Some x -> client_there w1 c ->
  run (Fork (c_client x) cpid :: h2) w1 = Some w2 -> alive w2 (length (w_procs w1)) = true -> held (ClientEnd c) w2 = true.
Proof.
  intros E1 HX (x' & K1 & K2 & K3) E2 A. pose proof (inv_run h1 _ _ inv0 E1) as HI. assert (x' = x) by congruence. subst x'. cbn [run] in E2. destruct (step (Fork (c_client x) cpid) w1) as [w|] eqn:EF; [|discriminate E2].
  pose proof (inv_fork _ _ _ _ HI EF) as HI'. apply held_holds. exists (length (w_procs w1)). apply (heir_run _ (ClientEnd c) h2 w w2 HI' E2); [|exact A]. apply (fork_heir w1 (c_client x) cpid w _ HI EF). now apply (i_open _ HI _ _ HX K3).
Qed.

(** ** A server without its process answers nobody *)
Lemma not_serving_later w w' l s : later w w' -> nth_error (w_servers w) l = Some s -> s_maker s < length (w_procs w) -> ~ serves w l (s_pid s) -> ~ serves w' l (s_pid s).
Proof.
  intros L HS LT N (s2 & K1 & _ & K2 & K3). apply N. destruct (la_server _ _ L _ _ HS) as (s3 & M1 & _ & M2 & M3). assert (s3 = s2) by congruence. subst. exists s. repeat split; auto. apply (la_alive _ _ L); [exact LT|]. now rewrite <- M2.
Qed.
Lemma filter_set {A} (f : A -> bool) (l : list A) i x y : nth_error l i = Some x -> f y = f x -> length (filter f (set_nth i y l)) = length (filter f l).
Proof.
  revert i. induction l as [|a l IH]; intros [|i] H E; try discriminate H; cbn in *.
  - injection H as ->. rewrite E. destruct (f x); reflexivity.
  - destruct (f a); cbn; now rewrite (IH _ H E).
Qed.
Lemma queue_step a w w' l s : step a w = Some w' -> nth_error (w_servers w) l = Some s -> ~ serves w l (s_pid s) -> queue l w <= queue l w'.
Proof.
  intros E HS N. unfold queue. set (f := fun c => match c_stage c with Waiting => c_server c =? l | _ => false end).
  destruct a as [pid|p pid|p|p|p pid|c|c|k|c]; cbn [step] in E.
  - destruct (free pid w); [|discriminate E]. injection E as <-. reflexivity.
  - destruct (nth_error (w_procs w) p) as [z|]; [|discriminate E]. destruct (p_alive z && free pid w); [|discriminate E]. injection E as <-. reflexivity.
  - destruct (nth_error (w_procs w) p) as [z|]; [|discriminate E]. destruct (p_alive z); [|discriminate E]. injection E as <-. reflexivity.
  - destruct (nth_error (w_procs w) p) as [z|]; [|discriminate E]. destruct (p_alive z); [|discriminate E]. destruct (bound (p_pid z) w); injection E as <-; reflexivity.
  - destruct (alive w p); [|discriminate E]. destruct (connecting pid w); try discriminate E; injection E as <-; [reflexivity|]. cbn [w_conns]. rewrite filter_app, app_length. lia.
  - destruct (nth_error (w_conns w) c) as [y|] eqn:Hc; [|discriminate E]. destruct (c_stage y) eqn:ST; try discriminate E. destruct (nth_error (w_servers w) (c_server y)) as [t|] eqn:Ht; [|discriminate E]. destruct (s_up t && alive w (s_maker t)) eqn:AM; [|discriminate E].
    apply andb_prop in AM. injection E as <-. cbn [w_conns]. rewrite (filter_set f _ c y) by (exact Hc || (cbn; unfold f; rewrite ST; symmetry; apply Nat.eqb_neq; intros K; rewrite K in Ht; assert (t = s) by congruence; subst; apply N; exists s; tauto)). reflexivity.
  - destruct (nth_error (w_conns w) c) as [y|] eqn:Hc; [|discriminate E]. destruct (c_stage y) eqn:ST; try discriminate E. destruct (nth_error (w_servers w) (c_server y)) as [t|] eqn:Ht; [|discriminate E]. destruct (s_up t && alive w (s_maker t) && negb (held (ClientEnd c) w)); [|discriminate E].
    injection E as <-. cbn [w_conns]. rewrite (filter_set f _ c y) by (exact Hc || (cbn; unfold f; rewrite ST; reflexivity)). reflexivity.
  - destruct (nth_error (w_servers w) k) as [t|]; [|discriminate E]. destruct (s_up t && alive w (s_maker t)); [|discriminate E]. injection E as <-. reflexivity.
  - destruct (nth_error (w_conns w) c) as [y|] eqn:Hc; [|discriminate E]. destruct (c_open y && alive w (c_client y)); [|discriminate E]. injection E as <-. cbn [w_conns]. rewrite (filter_set f _ c y) by (exact Hc || reflexivity). reflexivity.
Qed.
Lemma queue_run h : forall w w' l s, inv w -> run h w = Some w' -> nth_error (w_servers w) l = Some s -> ~ serves w l (s_pid s) -> queue l w <= queue l w'.
Proof.
  induction h as [|a h IH]; intros w w' l s HI E HS N; cbn in E; [injection E as <-; lia|]. destruct (step a w) as [w1|] eqn:E1; [|discriminate E]. pose proof (queue_step _ _ _ _ _ E1 HS N) as Q1. pose proof (step_later _ _ _ E1) as L.
  destruct (la_server _ _ L _ _ HS) as (s2 & M1 & M2 & _). assert (Q2 : queue l w1 <= queue l w'); [|lia]. apply (IH w1 w' l s2); auto; [eapply inv_step; eauto|]. rewrite M2. eapply not_serving_later; eauto. eapply i_server; eauto.
Qed.

Theorem orphan_blocks h1 h2 w1 w2 l s : run h1 world0 = Some w1 -> nth_error (w_servers w1) l = Some s -> ~ serves w1 l (s_pid s) -> run h2 w1 = Some w2 ->
  held (Listener l) w2 = true ->
  (forall c y, nth_error (w_conns w2) c = Some y -> c_server y = l -> ~ answered w2 c) /\
  (5 < queue l w1 -> connecting (s_pid s) w2 = Blocks).
Proof.
  intros E1 HS N E2 HH. pose proof (inv_run h1 _ _ inv0 E1) as HI. pose proof (inv_run h2 _ _ HI E2) as HI2. pose proof (run_later _ _ _ E2) as L. destruct (la_server _ _ L _ _ HS) as (s2 & M1 & M2 & _).
  assert (N2 : ~ serves w2 l (s_pid s)) by (eapply not_serving_later; eauto; eapply i_server; eauto). split.
  - intros c y HC HL (y' & pid & K1 & _ & K2). assert (y' = y) by congruence. subst y'. rewrite HL in K2. destruct K2 as (s3 & P1 & P2 & P3). apply N2. assert (s3 = s2) by congruence. subst. exists s2. auto.
  - intros Q. unfold connecting. rewrite (bound_is w2 (s_pid s) l s2 HI2 M1 M2 HH). unfold full. pose proof (queue_run h2 _ _ _ _ HI E2 HS N). replace (5 <? queue l w2) with true; [reflexivity|]. symmetry. apply Nat.ltb_lt. lia.
Qed.

(** ** A process that has no server can make one *)
Theorem can_serve h w p x : run h world0 = Some w -> nth_error (w_procs w) p = Some x -> p_alive x = true ->
  (forall l s, nth_error (w_servers w) l = Some s -> childless w (s_maker s)) ->
  (forall l s, nth_error (w_servers w) l = Some s -> s_maker s = p -> s_up s = false) ->
  exists w', step (Serve p) w = Some w' /\ serves w' (length (w_servers w)) (p_pid x).
Proof.
  intros E HX AX HC HU. pose proof (inv_run h _ _ inv0 E) as HI. cbn [step]. rewrite HX, AX.
  destruct (bound (p_pid x) w) as [l|] eqn:EB.
  - exfalso. apply bound_some in EB. destruct EB as (s & K1 & K2 & K3). apply held_holds in K3. destruct K3 as [q K3]. destruct (i_lst _ HI _ _ K3) as (s' & L1 & L2). assert (s' = s) by congruence. subst s'.
    pose proof (i_alive _ HI _ _ K3) as A. assert (q = s_maker s) by (eapply HC; eauto). subst q.
    assert (U : s_up s = true) by (now apply (i_up _ HI _ _ K1 A)).
    assert (M : s_maker s = p); [|rewrite (HU _ _ K1 M) in U; discriminate U].
    destruct (alive_some _ _ A) as (z & Z1 & Z2). eapply (pid_once h w E); eauto. rewrite <- K2.
    clear - E K1 Z1. (* the name of a server is the number of its process *)
    revert l s z K1 Z1. cut (forall h w0 w, (forall l s z, nth_error (w_servers w0) l = Some s -> nth_error (w_procs w0) (s_maker s) = Some z -> p_pid z = s_pid s) -> inv w0 -> run h w0 = Some w ->
      forall l s z, nth_error (w_servers w) l = Some s -> nth_error (w_procs w) (s_maker s) = Some z -> p_pid z = s_pid s).
    { intros G. apply (G h world0 w); [|exact inv0|exact E]. intros [|l] s z K; discriminate K. }
    clear. induction h as [|a h IH]; intros w0 w U HI E; cbn in E; [now injection E as <-|]. destruct (step a w0) as [w1|] eqn:E1; [|discriminate E]. apply (IH w1 w); [|eapply inv_step; eauto|exact E]. clear IH E h w.
    pose proof (step_later _ _ _ E1) as L. intros l s z K1 Z1.
    destruct (nth_error (w_servers w0) l) as [s0|] eqn:K0.
    + destruct (la_server _ _ L _ _ K0) as (s1 & M1 & M2 & M3 & _). assert (s1 = s) by congruence. subst s1. rewrite M3 in Z1. destruct (nth_error (w_procs w0) (s_maker s0)) as [z0|] eqn:Z0; [|apply nth_error_None in Z0; pose proof (i_server _ HI _ _ K0); lia].
      destruct (la_pid _ _ L _ _ Z0) as (z1 & N1 & N2 & _). assert (z1 = z) by congruence. subst z1. rewrite N2, M2. eauto.
    + destruct a as [pid|p pid|p|p|p pid|c|c|k|c]; cbn [step] in E1.
      * destruct (free pid w0); [|discriminate E1]. injection E1 as <-. cbn [w_servers] in K1. congruence.
      * destruct (nth_error (w_procs w0) p) as [v|]; [|discriminate E1]. destruct (p_alive v && free pid w0); [|discriminate E1]. injection E1 as <-. cbn [w_servers] in K1. congruence.
      * destruct (nth_error (w_procs w0) p) as [v|]; [|discriminate E1]. destruct (p_alive v); [|discriminate E1]. injection E1 as <-. cbn [w_servers] in K1. congruence.
      * destruct (nth_error (w_procs w0) p) as [v|] eqn:HV; [|discriminate E1]. destruct (p_alive v); [|discriminate E1]. destruct (bound (p_pid v) w0); injection E1 as <-; [congruence|]. cbn [w_servers] in K1. rewrite nth_app_one in K1. destruct (l =? length (w_servers w0)); [|congruence].
        injection K1 as <-. cbn in Z1 |- *. destruct (la_pid _ _ L _ _ HV) as (v1 & N1 & N2 & _). cbn [w_procs] in N1. assert (v1 = z) by congruence. subst. exact N2.
      * destruct (alive w0 p); [|discriminate E1]. destruct (connecting pid w0); try discriminate E1; injection E1 as <-; cbn [w_servers] in K1; congruence.
      * destruct (nth_error (w_conns w0) c) as [y|]; [|discriminate E1]. destruct (c_stage y); try discriminate E1. destruct (nth_error (w_servers w0) (c_server y)) as [t|]; [|discriminate E1]. destruct (s_up t && alive w0 (s_maker t)); [|discriminate E1]. injection E1 as <-. cbn [w_servers] in K1. congruence.
      * destruct (nth_error (w_conns w0) c) as [y|]; [|discriminate E1]. destruct (c_stage y); try discriminate E1. destruct (nth_error (w_servers w0) (c_server y)) as [t|]; [|discriminate E1]. destruct (s_up t && alive w0 (s_maker t) && negb (held (ClientEnd c) w0)); [|discriminate E1]. injection E1 as <-. cbn [w_servers] in K1. congruence.
      * destruct (nth_error (w_servers w0) k) as [t|] eqn:HT; [|discriminate E1]. destruct (s_up t && alive w0 (s_maker t)); [|discriminate E1]. injection E1 as <-. cbn [w_servers] in K1. rewrite nth_set_nth, HT in K1. destruct (Nat.eqb_spec k l); congruence.
      * destruct (nth_error (w_conns w0) c) as [y|]; [|discriminate E1]. destruct (c_open y && alive w0 (c_client y)); [|discriminate E1]. injection E1 as <-. cbn [w_servers] in K1. congruence.
  - set (w' := Build_world _ _ _). exists w'. split; [reflexivity|]. assert (AP : alive w p = true) by (unfold alive; now rewrite HX). exists {| s_pid := p_pid x; s_maker := p; s_up := true |}.
    cbn [w' w_servers]. rewrite nth_app_one, Nat.eqb_refl. repeat split. cbn [s_maker]. now rewrite (fds_alive w w' p (cons (Listener (length (w_servers w)))) AP eq_refl).
Qed.
