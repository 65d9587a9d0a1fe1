(** Proofs for C113. *)
From Coq Require Import List Arith Bool Lia.
Import ListNotations.
From Verif Require Import Still_model Still_spec.

Lemma nth_set_same p x : forall l y, nth_error l p = Some y -> nth_error (set_server p x l) p = Some x.
Proof.
  unfold set_server. induction p as [|p IH]; intros [|z l] y H; cbn in *; try discriminate; auto. exact (IH l y H).
Qed.
Lemma nth_set_other p x j : forall l y, nth_error l p = Some y -> j <> p -> nth_error (set_server p x l) j = nth_error l j.
Proof.
  unfold set_server. revert j. induction p as [|p IH]; intros j [|z l] y H N; cbn in *; try discriminate.
  - destruct j; [lia|reflexivity].
  - destruct j; [reflexivity|]. cbn. apply (IH j l y H). lia.
Qed.
Lemma run_app : forall a b s, run (a ++ b) s = match run a s with Some s' => run b s' | None => None end.
Proof. induction a as [|l a IH]; intros b s; cbn; auto. destruct (step l s); auto. Qed.

(** The time a poll may still take if it is never blocked. *)
Definition left_time (m : mpc) : nat := match m with Next t => 200 * length t | Waits _ t => 200 + 200 * length t | Asks _ n t => n + 200 * length t | _ => 0 end.
Definition polls (m : mpc) : Prop := match m with Idle | Crashed => False | _ => True end.

Lemma has_room_false x : has_room x = false <-> 6 <= length (sv_queue x).
Proof. unfold has_room, backlog. rewrite Nat.leb_gt. lia. Qed.

Lemma step_time l s s' : step l s = Some s' -> (forall ds, l <> Poll ds) -> polls (man s') -> (forall p, ~ blocked p s) ->
  polls (man s) /\ now s' + left_time (man s') <= now s + left_time (man s).
Proof.
  intros H N P B. destruct l as [ds| | |p|p|p|p|p|]; cbn [step] in H.
  - destruct (N ds eq_refl).
  - unfold go in H. destruct (man s) as [|[|p t]|p t|p [|n] t|] eqn:Em; try discriminate H.
    + injection H as <-. contradiction.
    + injection H as <-. cbn. destruct (existsb (Nat.eqb p) (held s)); cbn; split; auto; lia.
    + destruct (nth_error (servers s) p) as [x|]; [|discriminate]. destruct (alive x); [|injection H as <-; contradiction]. destruct (has_room x); [|discriminate]. injection H as <-. cbn. split; auto; lia.
    + injection H as <-. cbn. split; auto; lia.
  - destruct (man s) as [| | |p n t|] eqn:Em; try discriminate H. destruct (nth_error (servers s) p) as [x|]; [|discriminate]. destruct (sv_up x); try discriminate. destruct (existsb (fun b => b) (sv_queue x)); [discriminate|].
    injection H as <-. cbn. split; auto; lia.
  - destruct (nth_error (servers s) p) as [x|]; [|discriminate]. destruct (sv_up x); try discriminate. destruct (sv_queue x); [discriminate|]. injection H as <-. cbn in *. split; auto.
  - destruct (nth_error (servers s) p) as [x|]; [|discriminate]. destruct (alive x && has_room x); [|discriminate]. injection H as <-. cbn in *. split; auto.
  - destruct (nth_error (servers s) p) as [x|]; [|discriminate]. destruct (sv_up x); try discriminate. injection H as <-. cbn in *. split; auto.
  - destruct (nth_error (servers s) p) as [x|]; [|discriminate]. destruct (sv_up x); try discriminate. injection H as <-. cbn in *. split; auto.
  - destruct (nth_error (servers s) p) as [x|]; [|discriminate]. destruct (alive x); [|discriminate]. injection H as <-. cbn in *. split; auto.
  - destruct (man s) as [|t|p t|p [|n] t|] eqn:Em; try discriminate H.
    + injection H as <-. contradiction.
    + destruct (nth_error (servers s) p) as [x|] eqn:Ex; [|discriminate]. destruct (sv_up x) eqn:Eu; try discriminate. destruct (has_room x) eqn:Er; [discriminate|]. exfalso. apply (B p). split; [eauto|].
      exists (sv_queue x). split; [rewrite Ex; f_equal; destruct x; cbn in *; congruence|]. now apply has_room_false.
    + injection H as <-. cbn. split; auto; lia.
Qed.

Theorem poll_time n s ds s1 ls s' : reached n s -> step (Poll ds) s = Some s1 -> run ls s1 = Some s' -> no_poll ls -> calm ls s1 -> man s' <> Idle -> man s' <> Crashed ->
  now s' <= now s + 200 * length ds.
Proof.
  intros _ H R NP C I1 I2. assert (P : polls (man s')) by (destruct (man s'); cbn; auto).
  assert (G : forall ls s1, run ls s1 = Some s' -> no_poll ls -> calm ls s1 -> polls (man s1) /\ now s' + left_time (man s') <= now s1 + left_time (man s1)).
  { clear - P. induction ls as [|l ls IH]; intros s1 R NP C; cbn in R; [injection R as <-; auto|]. destruct (step l s1) as [s2|] eqn:E; [|discriminate].
    destruct (IH s2 R) as [P2 L2].
    - intros d Hd. apply (NP d). now right.
    - intros a b s3 p Eab Ra. apply (C (l :: a) b s3 p); [now rewrite Eab|]. cbn. now rewrite E.
    - destruct (step_time l s1 s2 E) as [P1 L1]; auto.
      + intros d ->. apply (NP d). now left.
      + intros p. apply (C [] (l :: ls) s1 p); reflexivity.
      + split; [exact P1|lia]. }
  destruct (G ls s1 R NP C) as [_ L]. cbn [step] in H. destruct (man s); try discriminate. destruct (forallb (is_alive s) ds); [|discriminate]. injection H as <-. cbn [now man left_time] in L. lia.
Qed.

(** * What is held at the end *)
Definition todo_of (m : mpc) : list nat := match m with Next t => t | Waits p t => p :: t | Asks _ _ t => t | _ => [] end.
Lemma step_held l s s' ds : step l s = Some s' -> (forall d, l <> Poll d) -> polls (man s) ->
  (forall p, In p ds -> In p (held s) \/ In p (todo_of (man s))) -> man s' = Crashed \/ forall p, In p ds -> In p (held s') \/ In p (todo_of (man s')).
Proof.
  intros H N P K. destruct l as [d| | |p|p|p|p|p|]; cbn [step] in H.
  - destruct (N d eq_refl).
  - unfold go in H. destruct (man s) as [|[|p t]|p t|p [|n] t|] eqn:Em; try discriminate H.
    + injection H as <-. right. cbn in *. intros q Hq. destruct (K q Hq) as [|[]]; auto.
    + injection H as <-. right. cbn in *. intros q Hq. destruct (existsb (Nat.eqb p) (held s)) eqn:Ex; cbn.
      * destruct (K q Hq) as [|[->|]]; auto. left. apply existsb_exists in Ex as (r & Hr & Er). apply Nat.eqb_eq in Er. now subst.
      * destruct (K q Hq) as [|[->|]]; auto.
    + destruct (nth_error (servers s) p) as [x|]; [|discriminate]. destruct (alive x); [|injection H as <-; now left]. destruct (has_room x); [|discriminate]. injection H as <-. right. cbn in *.
      intros q Hq. rewrite in_app_iff. cbn. destruct (K q Hq) as [|[->|]]; auto.
    + injection H as <-. right. exact K.
  - destruct (man s) as [| | |p n t|] eqn:Em; try discriminate H. destruct (nth_error (servers s) p) as [x|]; [|discriminate]. destruct (sv_up x); try discriminate. destruct (existsb (fun b => b) (sv_queue x)); [discriminate|].
    injection H as <-. right. exact K.
  - destruct (nth_error (servers s) p) as [x|]; [|discriminate]. destruct (sv_up x); try discriminate. destruct (sv_queue x); [discriminate|]. injection H as <-. right. exact K.
  - destruct (nth_error (servers s) p) as [x|]; [|discriminate]. destruct (alive x && has_room x); [|discriminate]. injection H as <-. right. exact K.
  - destruct (nth_error (servers s) p) as [x|]; [|discriminate]. destruct (sv_up x); try discriminate. injection H as <-. right. exact K.
  - destruct (nth_error (servers s) p) as [x|]; [|discriminate]. destruct (sv_up x); try discriminate. injection H as <-. right. exact K.
  - destruct (nth_error (servers s) p) as [x|]; [|discriminate]. destruct (alive x); [|discriminate]. injection H as <-. right. exact K.
  - destruct (man s) as [|t|p t|p [|n] t|] eqn:Em; try discriminate H.
    + contradiction.
    + destruct (nth_error (servers s) p) as [x|] eqn:Ex; [|discriminate]. destruct (sv_up x) eqn:Eu; try discriminate. destruct (has_room x) eqn:Er; [discriminate|]. injection H as <-. right. exact K.
    + injection H as <-. right. exact K.
Qed.
Lemma idle_keeps l s s' : step l s = Some s' -> (forall d, l <> Poll d) -> man s = Idle -> man s' = Idle /\ held s' = held s.
Proof.
  intros H N Em. destruct l as [d| | |p|p|p|p|p|]; cbn [step] in H; [destruct (N d eq_refl)|..]; unfold go in H; rewrite ?Em in H; try discriminate H.
  - destruct (nth_error (servers s) p) as [x|]; [|discriminate]. destruct (sv_up x); try discriminate. destruct (sv_queue x); [discriminate|]. injection H as <-. auto.
  - destruct (nth_error (servers s) p) as [x|]; [|discriminate]. destruct (alive x && has_room x); [|discriminate]. injection H as <-. auto.
  - destruct (nth_error (servers s) p) as [x|]; [|discriminate]. destruct (sv_up x); try discriminate. injection H as <-. auto.
  - destruct (nth_error (servers s) p) as [x|]; [|discriminate]. destruct (sv_up x); try discriminate. injection H as <-. auto.
  - destruct (nth_error (servers s) p) as [x|]; [|discriminate]. destruct (alive x); [|discriminate]. injection H as <-. auto.
  - injection H as <-. auto.
Qed.
Lemma crashed_stays l s s' : step l s = Some s' -> man s = Crashed -> man s' = Crashed.
Proof.
  intros H Em. destruct l as [d| | |p|p|p|p|p|]; cbn [step] in H; unfold go in H; rewrite ?Em in H; try discriminate H.
  - destruct (nth_error (servers s) p) as [x|]; [|discriminate]. destruct (sv_up x); try discriminate. destruct (sv_queue x); [discriminate|]. injection H as <-. auto.
  - destruct (nth_error (servers s) p) as [x|]; [|discriminate]. destruct (alive x && has_room x); [|discriminate]. injection H as <-. auto.
  - destruct (nth_error (servers s) p) as [x|]; [|discriminate]. destruct (sv_up x); try discriminate. injection H as <-. auto.
  - destruct (nth_error (servers s) p) as [x|]; [|discriminate]. destruct (sv_up x); try discriminate. injection H as <-. auto.
  - destruct (nth_error (servers s) p) as [x|]; [|discriminate]. destruct (alive x); [|discriminate]. injection H as <-. auto.
Qed.
Lemma run_crashed : forall ls s s', run ls s = Some s' -> man s = Crashed -> man s' = Crashed.
Proof.
  induction ls as [|l ls IH]; intros s s' R E; cbn in R; [injection R as <-; auto|]. destruct (step l s) as [s1|] eqn:E1; [|discriminate]. apply (IH s1 s' R). eapply crashed_stays; eauto.
Qed.
Theorem poll_connects n s ds s1 ls s' : reached n s -> step (Poll ds) s = Some s1 -> run ls s1 = Some s' -> no_poll ls -> man s' = Idle -> forall p, In p ds -> In p (held s').
Proof.
  intros _ H R NP Em.
  assert (G : forall ls s1, run ls s1 = Some s' -> no_poll ls -> (man s1 = Idle -> forall p, In p ds -> In p (held s1)) ->
    (forall p, In p ds -> In p (held s1) \/ In p (todo_of (man s1))) -> forall p, In p ds -> In p (held s')).
  { clear - Em. induction ls as [|l ls IH]; intros s1 R NP KI K; cbn in R; [injection R as <-; auto|]. destruct (step l s1) as [s2|] eqn:E; [|discriminate].
    assert (Nl : forall d, l <> Poll d) by (intros d ->; apply (NP d); now left). assert (NP' : no_poll ls) by (intros d Hd; apply (NP d); now right).
    destruct (man s1) as [|t|p t|p n t|] eqn:Em1.
    - destruct (idle_keeps l s1 s2 E Nl Em1) as [E1 E2]. apply (IH s2 R NP'); rewrite E2; [auto|]. intros p Hp. left. auto.
    - destruct (step_held l s1 s2 ds E Nl) as [Cr|K2]; [rewrite Em1; exact Logic.I|rewrite Em1; exact K|rewrite (run_crashed _ _ _ R Cr) in Em; discriminate|].
      apply (IH s2 R NP'); [|exact K2]. intros Ei p Hp. destruct (K2 p Hp) as [|Hx]; auto. rewrite Ei in Hx. destruct Hx.
    - destruct (step_held l s1 s2 ds E Nl) as [Cr|K2]; [rewrite Em1; exact Logic.I|rewrite Em1; exact K|rewrite (run_crashed _ _ _ R Cr) in Em; discriminate|].
      apply (IH s2 R NP'); [|exact K2]. intros Ei q Hq. destruct (K2 q Hq) as [|Hx]; auto. rewrite Ei in Hx. destruct Hx.
    - destruct (step_held l s1 s2 ds E Nl) as [Cr|K2]; [rewrite Em1; exact Logic.I|rewrite Em1; exact K|rewrite (run_crashed _ _ _ R Cr) in Em; discriminate|].
      apply (IH s2 R NP'); [|exact K2]. intros Ei q Hq. destruct (K2 q Hq) as [|Hx]; auto. rewrite Ei in Hx. destruct Hx.
    - assert (Cr : man s2 = Crashed) by (eapply crashed_stays; eauto). rewrite (run_crashed _ _ _ R Cr) in Em. discriminate. }
  cbn [step] in H. destruct (man s); try discriminate. destruct (forallb (is_alive s) ds); [|discriminate]. injection H as <-. apply (G ls _ R NP); cbn; [discriminate|auto].
Qed.

(** * Blocked *)
Lemma step_blocked l s s' p todo : step l s = Some s' -> l <> Resume p -> l <> Die p -> man s = Waits p todo -> full p s -> man s' = Waits p todo /\ full p s' /\ held s' = held s.
Proof.
  intros H N1 N2 Em (q & Eq & Lq). pose proof (proj2 (has_room_false {| sv_up := Stands; sv_queue := q |}) Lq) as Hr.
  assert (K : forall j x y, nth_error (servers s) j = Some y -> (j = p -> exists q', x = {| sv_up := Stands; sv_queue := q' |} /\ 6 <= length q') -> full p (with_server j x s)).
  { intros j x y Ey Hj. unfold full. cbn. destruct (Nat.eq_dec j p) as [->|Nj].
    - destruct (Hj eq_refl) as (q' & -> & L'). exists q'. split; [apply (nth_set_same p _ _ y Ey)|exact L'].
    - exists q. split; [rewrite (nth_set_other j x p _ y Ey); auto|exact Lq]. }
  destruct l as [d| | |j|j|j|j|j|]; cbn [step] in H.
  - rewrite Em in H. discriminate.
  - unfold go in H. rewrite Em, Eq, Hr in H. discriminate.
  - rewrite Em in H. discriminate.
  - destruct (nth_error (servers s) j) as [x|] eqn:Ex; [|discriminate]. destruct (sv_up x) eqn:Eu; try discriminate. destruct (sv_queue x) as [|b r]; [discriminate|]. injection H as <-. repeat split; auto.
    apply (K j _ x Ex). intros ->. rewrite Eq in Ex. injection Ex as <-. discriminate.
  - destruct (nth_error (servers s) j) as [x|] eqn:Ex; [|discriminate]. destruct (alive x && has_room x) eqn:Ea; [|discriminate]. injection H as <-. repeat split; auto.
    apply (K j _ x Ex). intros ->. rewrite Eq in Ex. injection Ex as <-. rewrite Hr, andb_false_r in Ea. discriminate.
  - destruct (nth_error (servers s) j) as [x|] eqn:Ex; [|discriminate]. destruct (sv_up x) eqn:Eu; try discriminate. injection H as <-. repeat split; auto.
    apply (K j _ x Ex). intros ->. rewrite Eq in Ex. injection Ex as <-. discriminate.
  - destruct (nth_error (servers s) j) as [x|] eqn:Ex; [|discriminate]. destruct (sv_up x) eqn:Eu; try discriminate. injection H as <-. repeat split; auto.
    apply (K j _ x Ex). intros ->. now destruct N1.
  - destruct (nth_error (servers s) j) as [x|] eqn:Ex; [|discriminate]. destruct (alive x) eqn:Eu; try discriminate. injection H as <-. repeat split; auto.
    apply (K j _ x Ex). intros ->. now destruct N2.
  - rewrite Em, Eq in H. cbn [sv_up] in H. rewrite Hr in H. injection H as <-. repeat split; auto. exists q. auto.
Qed.
Theorem blocked_for_ever p todo : forall ls s s', man s = Waits p todo -> full p s -> ~ In (Resume p) ls -> ~ In (Die p) ls -> run ls s = Some s' ->
  man s' = Waits p todo /\ full p s' /\ held s' = held s.
Proof.
  induction ls as [|l ls IH]; intros s s' Em F N1 N2 R; cbn in R; [injection R as <-; auto|]. destruct (step l s) as [s1|] eqn:E; [|discriminate].
  destruct (step_blocked l s s1 p todo E) as (Em1 & F1 & H1); auto; [intros ->; apply N1; now left|intros ->; apply N2; now left|].
  destruct (IH s1 s' Em1 F1) as (A & B & C); auto; [intros X; apply N1; now right|intros X; apply N2; now right|]. repeat split; auto. congruence.
Qed.
Lemma blocked_time p todo : forall k s, man s = Waits p todo -> full p s -> exists s', run (repeat Tick k) s = Some s' /\ now s' = now s + k /\ servers s' = servers s.
Proof.
  induction k as [|k IH]; intros s Em F; [exists s; cbn; auto|]. pose proof F as (q & Eq & Lq). pose proof (proj2 (has_room_false {| sv_up := Stands; sv_queue := q |}) Lq) as Hr.
  cbn [repeat run]. assert (E : step Tick s = Some {| now := S (now s); servers := servers s; man := man s; held := held s; answered := answered s |}).
  { cbn [step]. rewrite Em, Eq. cbn [sv_up]. now rewrite Hr. }
  rewrite E. destruct (IH {| now := S (now s); servers := servers s; man := man s; held := held s; answered := answered s |}) as (s' & R & N & S'); auto. exists s'. split; [exact R|]. cbn in *. split; [lia|auto].
Qed.
Theorem others_wait k : exists ls s, run ls (state0 2) = Some s /\ man s = Waits 0 [1] /\ full 0 s /\ k <= now s /\ nth_error (servers s) 1 = Some {| sv_up := Runs; sv_queue := [] |} /\ ~ In 1 (held s).
Proof.
  set (a := [Stop 0; Visit 0; Visit 0; Visit 0; Visit 0; Visit 0; Visit 0; Poll [0; 1]; Go]).
  destruct (run a (state0 2)) as [s|] eqn:E; [|vm_compute in E; discriminate].
  assert (K : man s = Waits 0 [1] /\ nth_error (servers s) 0 = Some {| sv_up := Stands; sv_queue := repeat false 6 |} /\ nth_error (servers s) 1 = Some {| sv_up := Runs; sv_queue := [] |} /\ held s = [] /\ now s = 0).
  { vm_compute in E. injection E as <-. cbn. auto. }
  destruct K as (Em & E0 & E1 & Eh & En). assert (F : full 0 s) by (exists (repeat false 6); split; [exact E0|cbn; lia]).
  destruct (blocked_time 0 [1] k s Em F) as (s' & R & N & S'). exists (a ++ repeat Tick k), s'. rewrite run_app, E. split; [exact R|].
  destruct (blocked_for_ever 0 [1] (repeat Tick k) s s' Em F) as (A & B & C); auto; try (intros X; apply repeat_spec in X; discriminate).
  repeat split; auto; [lia|now rewrite S'|]. rewrite C, Eh. intros [].
Qed.
Theorem goes_on s p todo q : man s = Waits p todo -> nth_error (servers s) p = Some {| sv_up := Stands; sv_queue := q |} -> length q = 6 ->
  exists s', run [Resume p; Accept p; Go] s = Some s' /\ man s' = Asks p 200 todo /\ In p (held s').
Proof.
  intros Em Eq Lq. destruct q as [|b q]; [discriminate|]. cbn in Lq. cbn [run step]. rewrite Eq. cbn [sv_up sv_queue].
  set (s1 := with_server p {| sv_up := Runs; sv_queue := b :: q |} s). assert (E1 : nth_error (servers s1) p = Some {| sv_up := Runs; sv_queue := b :: q |}) by apply (nth_set_same p _ _ _ Eq).
  rewrite E1. cbn [sv_up sv_queue]. set (s2 := with_server p {| sv_up := Runs; sv_queue := q |} s1). assert (E2 : nth_error (servers s2) p = Some {| sv_up := Runs; sv_queue := q |}) by apply (nth_set_same p _ _ _ E1).
  unfold go. change (man s2) with (man s). rewrite Em, E2. cbn [alive sv_up]. assert (Hr : has_room {| sv_up := Runs; sv_queue := q |} = true) by (unfold has_room, backlog; cbn; apply Nat.leb_le; lia).
  rewrite Hr. eexists. split; [reflexivity|]. cbn. split; [reflexivity|]. rewrite in_app_iff. cbn. auto.
Qed.
Theorem dies s p todo : blocked p s -> man s = Waits p todo -> exists s', run [Die p; Go] s = Some s' /\ man s' = Crashed.
Proof.
  intros (_ & q & Eq & Lq) Em. cbn [run step]. rewrite Eq. cbn [alive sv_up]. set (s1 := with_server p {| sv_up := Gone; sv_queue := [] |} s).
  assert (E1 : nth_error (servers s1) p = Some {| sv_up := Gone; sv_queue := [] |}) by apply (nth_set_same p _ _ _ Eq).
  unfold go. change (man s1) with (man s). rewrite Em, E1. cbn [alive sv_up]. eexists. split; [reflexivity|reflexivity].
Qed.

(** Nothing else holds the poll up. *)
Lemma len_set p x : forall l y, nth_error l p = Some y -> length (set_server p x l) = length l.
Proof.
  unfold set_server. induction p as [|p IH]; intros [|z l] y H; cbn in *; try discriminate; auto. f_equal. exact (IH l y H).
Qed.
Definition known (s : state) : Prop := forall p, In p (todo_of (man s)) -> p < length (servers s).
Lemma known_todo s s' : length (servers s') = length (servers s) -> incl (todo_of (man s')) (todo_of (man s)) -> known s -> known s'.
Proof. intros L I K p Hp. rewrite L. apply K. now apply I. Qed.
Lemma step_known l s s' : step l s = Some s' -> known s -> known s'.
Proof.
  intros H K. destruct l as [ds| | |p|p|p|p|p|]; cbn [step] in H.
  - destruct (man s) eqn:Em; try discriminate H. destruct (forallb (is_alive s) ds) eqn:Ea; [|discriminate]. injection H as <-. intros p Hp. cbn in *. rewrite forallb_forall in Ea. specialize (Ea p Hp). unfold is_alive in Ea.
    destruct (nth_error (servers s) p) eqn:En; [|discriminate]. apply nth_error_Some. congruence.
  - unfold go in H. destruct (man s) as [|[|p t]|p t|p [|n] t|] eqn:Em; try discriminate H.
    + injection H as <-. intros p [].
    + injection H as <-. apply (known_todo s); auto. rewrite Em. cbn. destruct (existsb (Nat.eqb p) (held s)); cbn; intros q Hq; cbn in *; auto.
    + destruct (nth_error (servers s) p) as [x|] eqn:Ex; [|discriminate]. destruct (alive x); [|injection H as <-; intros q []]. destruct (has_room x); [|discriminate]. injection H as <-. apply (known_todo s); auto; cbn.
      * now apply (len_set p _ _ x).
      * rewrite Em. intros q Hq. cbn in *. auto.
    + injection H as <-. apply (known_todo s); auto. rewrite Em. cbn. intros q Hq; auto.
  - destruct (man s) as [| | |p n t|] eqn:Em; try discriminate H. destruct (nth_error (servers s) p) as [x|]; [|discriminate]. destruct (sv_up x); try discriminate. destruct (existsb (fun b => b) (sv_queue x)); [discriminate|].
    injection H as <-. apply (known_todo s); auto. rewrite Em. cbn. intros q Hq; auto.
  - destruct (nth_error (servers s) p) as [x|] eqn:Ex; [|discriminate]. destruct (sv_up x); try discriminate. destruct (sv_queue x); [discriminate|]. injection H as <-. apply (known_todo s); auto; cbn; [now apply (len_set p _ _ x)|apply incl_refl].
  - destruct (nth_error (servers s) p) as [x|] eqn:Ex; [|discriminate]. destruct (alive x && has_room x); [|discriminate]. injection H as <-. apply (known_todo s); auto; cbn; [now apply (len_set p _ _ x)|apply incl_refl].
  - destruct (nth_error (servers s) p) as [x|] eqn:Ex; [|discriminate]. destruct (sv_up x); try discriminate. injection H as <-. apply (known_todo s); auto; cbn; [now apply (len_set p _ _ x)|apply incl_refl].
  - destruct (nth_error (servers s) p) as [x|] eqn:Ex; [|discriminate]. destruct (sv_up x); try discriminate. injection H as <-. apply (known_todo s); auto; cbn; [now apply (len_set p _ _ x)|apply incl_refl].
  - destruct (nth_error (servers s) p) as [x|] eqn:Ex; [|discriminate]. destruct (alive x); [|discriminate]. injection H as <-. apply (known_todo s); auto; cbn; [now apply (len_set p _ _ x)|apply incl_refl].
  - destruct (man s) as [|t|p t|p [|n] t|] eqn:Em; try discriminate H.
    + injection H as <-. intros q [].
    + destruct (nth_error (servers s) p) as [x|] eqn:Ex; [|discriminate]. destruct (sv_up x); try discriminate. destruct (has_room x); [discriminate|]. injection H as <-. apply (known_todo s); auto. cbn. rewrite Em. apply incl_refl.
    + injection H as <-. apply (known_todo s); auto. cbn. rewrite Em. apply incl_refl.
Qed.
Lemma run_known : forall ls s s', run ls s = Some s' -> known s -> known s'.
Proof. induction ls as [|l ls IH]; intros s s' R K; cbn in R; [now injection R as <-|]. destruct (step l s) as [s1|] eqn:E; [|discriminate]. exact (IH s1 s' R (step_known l s s1 E K)). Qed.
Lemma reached_known n s : reached n s -> known s.
Proof. intros (ls & R). apply (run_known ls _ _ R). intros p []. Qed.

Theorem never_stuck n s : reached n s -> man s <> Idle -> man s <> Crashed -> (forall p, ~ blocked p s) ->
  (exists s', step Go s = Some s') \/ (exists s', step Tick s = Some s' /\ now s' = S (now s)) \/
  (exists p todo s', man s = Waits p todo /\ step (Accept p) s = Some s').
Proof.
  intros R N1 N2 B. assert (K := reached_known n s R). destruct (man s) as [|[|p t]|p t|p [|m] t|] eqn:Em; try congruence.
  - left. cbn. unfold go. rewrite Em. eauto.
  - left. cbn. unfold go. rewrite Em. eauto.
  - assert (L : p < length (servers s)) by (apply K; rewrite Em; now left). destruct (nth_error (servers s) p) as [x|] eqn:Ex; [|apply nth_error_None in Ex; lia].
    destruct (has_room x) eqn:Er.
    + left. cbn. unfold go. rewrite Em, Ex, Er. destruct (alive x); eauto.
    + destruct (sv_up x) eqn:Eu.
      * right. right. exists p, t. cbn [step]. rewrite Ex, Eu. apply has_room_false in Er. destruct (sv_queue x); [cbn in Er; lia|]. eauto.
      * exfalso. apply (B p). split; [eauto|]. exists (sv_queue x). split; [rewrite Ex; f_equal; destruct x; cbn in *; congruence|]. now apply has_room_false.
      * left. cbn. unfold go. rewrite Em, Ex. unfold alive. rewrite Eu. eauto.
  - left. cbn. unfold go. rewrite Em. eauto.
  - right. left. cbn. rewrite Em. eauto.
Qed.

Lemma within_refl a : within a a.
Proof. induction a; constructor; auto. Qed.
Lemma within_cut a x b c : within (a ++ x :: b) c -> within (a ++ b) c.
Proof.
  intros H. remember (a ++ x :: b) as l eqn:E. revert a E. induction H as [c|y l c H IH|y l c H IH]; intros a E.
  - destruct a; discriminate.
  - destruct a as [|z a]; cbn in *; injection E as -> ->; [now apply w_skip|]. apply w_take. now apply IH.
  - apply w_skip. now apply IH.
Qed.
Lemma within_front a b c : within (a ++ b) c -> within a c.
Proof. revert a. induction b as [|x b IH]; intros a H; [now rewrite app_nil_r in H|]. apply IH. eapply within_cut, H. Qed.
(** Those that may still be asked, or answer. *)
Definition open_of (m : mpc) : list nat := match m with Next t => t | Waits p t | Asks p _ t => p :: t | _ => [] end.
Lemma step_answers l s s' old ds : step l s = Some s' -> (forall d, l <> Poll d) ->
  (exists a, answered s = old ++ a /\ within (a ++ open_of (man s)) ds) -> exists a, answered s' = old ++ a /\ within (a ++ open_of (man s')) ds.
Proof.
  intros St N (a & Ea & W). destruct l as [d| | |p|p|p|p|p|].
  - now destruct (N d).
  - cbn in St. unfold go in St. destruct (man s) as [|[|p t]|p t|p [|n] t|] eqn:Em; try discriminate.
    + injection St as <-. exists a. auto.
    + injection St as <-. exists a. split; [exact Ea|]. cbn. destruct (existsb (Nat.eqb p) (held s)); cbn; [eapply within_cut, W|exact W].
    + destruct (nth_error (servers s) p) as [x|]; [|discriminate]. destruct (alive x); [destruct (has_room x); [|discriminate]|]; injection St as <-; exists a; (split; [exact Ea|]); cbn; [exact W|].
      rewrite app_nil_r. eapply within_front, W.
    + injection St as <-. exists a. split; [exact Ea|]. cbn. eapply within_cut, W.
  - cbn in St. destruct (man s) as [| | |p n t|] eqn:Em; try discriminate. destruct (nth_error (servers s) p) as [x|]; [|discriminate]. destruct (sv_up x); try discriminate. destruct (existsb _ (sv_queue x)); [discriminate|].
    injection St as <-. exists (a ++ [p]). cbn. rewrite Ea, <- !app_assoc. split; [reflexivity|exact W].
  - cbn in St. destruct (nth_error (servers s) p) as [x|]; [|discriminate]. destruct (sv_up x); try discriminate. destruct (sv_queue x); [discriminate|]. injection St as <-. exists a. auto.
  - cbn in St. destruct (nth_error (servers s) p) as [x|]; [|discriminate]. destruct (alive x && has_room x); [|discriminate]. injection St as <-. exists a. auto.
  - cbn in St. destruct (nth_error (servers s) p) as [x|]; [|discriminate]. destruct (sv_up x); try discriminate. injection St as <-. exists a. auto.
  - cbn in St. destruct (nth_error (servers s) p) as [x|]; [|discriminate]. destruct (sv_up x); try discriminate. injection St as <-. exists a. auto.
  - cbn in St. destruct (nth_error (servers s) p) as [x|]; [|discriminate]. destruct (alive x); [|discriminate]. injection St as <-. exists a. auto.
  - cbn in St. destruct (man s) as [|t|p t|p [|n] t|] eqn:Em; try discriminate.
    + injection St as <-. exists a. auto.
    + destruct (nth_error (servers s) p) as [x|]; [|discriminate]. destruct (sv_up x); try discriminate. destruct (has_room x); [discriminate|]. injection St as <-. exists a. auto.
    + injection St as <-. exists a. auto.
Qed.
Theorem poll_answers s ds s1 ls s' : step (Poll ds) s = Some s1 -> run ls s1 = Some s' -> no_poll ls -> exists a, answered s' = answered s ++ a /\ within a ds.
Proof.
  intros St R N. assert (exists a, answered s1 = answered s ++ a /\ within (a ++ open_of (man s1)) ds) as H.
  { cbn in St. destruct (man s); try discriminate. destruct (forallb (is_alive s) ds); [|discriminate]. injection St as <-. exists []. cbn. rewrite app_nil_r. split; [reflexivity|apply within_refl]. }
  assert (exists a, answered s' = answered s ++ a /\ within (a ++ open_of (man s')) ds) as (a & E & W).
  { clear St. revert s1 R H. induction ls as [|l ls IH]; cbn; intros s1 R H; [injection R as <-; exact H|]. destruct (step l s1) as [s2|] eqn:E; [|discriminate].
    apply (IH (fun d H' => N d (or_intror H')) s2 R). eapply step_answers; [exact E| |exact H]. intros d ->. apply (N d). now left. }
  exists a. split; [exact E|]. eapply within_front, W.
Qed.
