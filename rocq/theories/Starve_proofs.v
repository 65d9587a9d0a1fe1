(** How long the worker can be kept from what waits (C108). *)
From Coq Require Import List Arith Bool Lia Sorting.Permutation.
Import ListNotations.
From Verif Require Import Starve_model Starve_spec.
Local Notation length := List.length.

(** ** Every broadcast is somewhere, once *)
Definition hand (p : wpc) : list nat := match p with AtSend x => [x] | _ => [] end.
Record kinv (s : worker) : Prop := {
  ki_pop : k_pc s = AtPop -> k_queue s <> [];
  ki_all : Permutation (k_sent s ++ hand (k_pc s) ++ k_queue s) (seq 0 (k_next s))
}.
Section Kind.
Variable k : kind.
Lemma kinv0 c : kinv (worker0 c).
Proof. constructor; [discriminate|constructor]. Qed.
Lemma kinv_step l s s' : kinv s -> step k l s = Next s' -> kinv s'.
Proof.
  intros [A B] H. destruct l as [|c r| |]; cbn [step] in H.
  - injection H as <-. constructor; cbn [k_pc k_queue k_sent k_next]; [intros _ E; destruct (k_queue s); discriminate E|].
    rewrite seq_S. cbn [plus]. rewrite !app_assoc. apply Permutation_app_tail. rewrite <- app_assoc. exact B.
  - injection H as <-. constructor; assumption.
  - injection H as <-. constructor; assumption.
  - destruct (k_pc s) as [| | | |x| |] eqn:P; cbn [hand app] in B.
    + injection H as <-. constructor; cbn [goto k_pc k_queue k_sent k_next]; [destruct (k_running s); discriminate|]. destruct (k_running s); exact B.
    + injection H as <-. constructor; cbn [k_pc k_queue k_sent k_next]; [discriminate|exact B].
    + injection H as <-. constructor; cbn [goto k_pc k_queue k_sent k_next]; [destruct (k_queue s); [discriminate|intros _; discriminate]|]. destruct (k_queue s); exact B.
    + destruct (rev (k_queue s)) as [|x r] eqn:R; [discriminate H|]. injection H as <-. constructor; cbn [k_pc k_queue k_sent k_next hand]; [discriminate|].
      assert (Q : k_queue s = rev r ++ [x]) by (rewrite <- (rev_involutive (k_queue s)), R; reflexivity). rewrite <- B, Q. apply Permutation_app_head. apply Permutation_app_comm.
    + injection H as <-. constructor; cbn [k_pc k_queue k_sent k_next hand app]; [discriminate|]. rewrite <- app_assoc. exact B.
    + injection H as <-. constructor; cbn [goto k_pc k_queue k_sent k_next hand app]; [discriminate|exact B].
    + discriminate H.
Qed.
Lemma kinv_run ls : forall s s', kinv s -> run k ls s = Next s' -> kinv s'.
Proof. induction ls as [|l ls IH]; intros s s' K H; cbn [run] in H; [injection H as <-; exact K|]. destruct (step k l s) as [s1| |] eqn:E; try discriminate H. eauto using kinv_step. Qed.
Lemma run_app a : forall b s, run k (a ++ b) s = match run k a s with Next s' => run k b s' | o => o end.
Proof. induction a as [|l a IH]; intros b s; cbn [run app]; [reflexivity|]. destruct (step k l s); auto. Qed.

Lemma defined ls : forall s, kinv s -> run k ls s <> Undefined.
Proof.
  induction ls as [|l ls IH]; intros s K H; cbn [run] in H; [discriminate H|]. destruct (step k l s) as [s1| |] eqn:E; [eapply IH; [eapply kinv_step; eauto|exact H]| |discriminate H].
  destruct l; try discriminate E. cbn [step] in E. destruct (k_pc s) eqn:P; try discriminate E. destruct (rev (k_queue s)) as [|x r] eqn:R; [|discriminate E].
  apply (ki_pop _ K P). rewrite <- (rev_involutive (k_queue s)), R. reflexivity.
Qed.
Lemma goes_on s : kinv s -> k_pc s <> Ended -> exists s', step k Work s = Next s'.
Proof.
  intros K P. cbn [step]. destruct (k_pc s) eqn:E; try (eexists; reflexivity); [|contradiction]. destruct (rev (k_queue s)) as [|x r] eqn:R; [|eexists; reflexivity].
  destruct (ki_pop _ K E). rewrite <- (rev_involutive (k_queue s)), R. reflexivity.
Qed.
Lemma once s : kinv s -> NoDup (k_sent s) /\ forall x, In x (k_sent s) -> x < k_next s.
Proof.
  intros [_ B]. assert (N : NoDup (k_sent s ++ hand (k_pc s) ++ k_queue s)) by (eapply Permutation_NoDup; [symmetry; exact B|apply seq_NoDup]).
  split; [induction (k_sent s) as [|x l IH]; [constructor|]; cbn [app] in N; inversion N as [|? ? N1 N2]; subst; constructor; [intros X; apply N1, in_or_app; auto|]|].
  - clear - N2. induction l as [|y l IH]; [constructor|]. cbn [app] in N2. inversion N2; subst. constructor; [intros X; apply H1, in_or_app; auto|auto].
  - intros x X. assert (Y : In x (seq 0 (k_next s))) by (eapply Permutation_in; [exact B|apply in_or_app; auto]). apply in_seq in Y. lia.
Qed.
Lemma waits_where x s : kinv s -> waits x s -> In x (hand (k_pc s) ++ k_queue s).
Proof.
  intros [_ B] (L & N). assert (Y : In x (k_sent s ++ hand (k_pc s) ++ k_queue s)) by (eapply Permutation_in; [symmetry; exact B|apply in_seq; lia]). apply in_app_or in Y. tauto.
Qed.

(** ** Accounting of the steps of the worker *)
Definition weight (p : wpc) : nat := match p with AtWhile => 0 | AtServe => 3 | AtHave => 2 | AtPop => 1 | AtSend _ => 3 | AtClean => 1 | Ended => 3 end.
Definition one (p : wpc) : nat := match p with AtWhile => 1 | _ => 0 end.
Definition owed (s : worker) : nat := 3 * length (k_queue s) + weight (k_pc s).
(** How often the worker comes to its outer loop. *)
Fixpoint rounds (ls : list label) (s : worker) : nat :=
  match ls with
  | [] => 0
  | l :: ls' => match step k l s with Next s' => (match l with Work => one (k_pc s) | _ => 0 end) + rounds ls' s' | _ => 0 end
  end.
Lemma turns_cons l ls : turns (l :: ls) = match l with Work => 1 | _ => 0 end + turns ls. Proof. destruct l; reflexivity. Qed.
Lemma casts_cons l ls : casts (l :: ls) = match l with Cast => 1 | _ => 0 end + casts ls. Proof. destruct l; reflexivity. Qed.
Lemma account_step l s s' : step k l s = Next s' ->
  match l with Work => 1 | _ => 0 end + owed s' = 4 * match l with Work => one (k_pc s) | _ => 0 end + 3 * match l with Cast => 1 | _ => 0 end + owed s.
Proof.
  intros H. unfold owed. destruct l as [|c r| |]; cbn [step] in H; try (injection H as <-; cbn [k_queue k_pc]; rewrite ?app_length; cbn [length]; lia).
  destruct (k_pc s) as [| | | |x| |] eqn:P.
  - injection H as <-. cbn [goto k_queue k_pc one]. destruct (k_running s); cbn [weight]; lia.
  - injection H as <-. cbn [k_queue k_pc weight one]. lia.
  - injection H as <-. cbn [goto k_queue k_pc one]. destruct (k_queue s); cbn [weight length]; lia.
  - destruct (rev (k_queue s)) as [|x r] eqn:R; [discriminate H|]. injection H as <-. cbn [k_queue k_pc weight one]. rewrite <- (rev_length (k_queue s)), R, rev_length. cbn [length]. lia.
  - injection H as <-. cbn [k_queue k_pc weight one]. lia.
  - injection H as <-. cbn [goto k_queue k_pc weight one]. lia.
  - discriminate H.
Qed.
Lemma account ls : forall s s', run k ls s = Next s' -> turns ls + owed s' = 4 * rounds ls s + 3 * casts ls + owed s.
Proof.
  induction ls as [|l ls IH]; intros s s' H; cbn [run rounds] in *; [injection H as <-; cbn; lia|]. destruct (step k l s) as [s1| |] eqn:E; try discriminate H.
  specialize (IH _ _ H). pose proof (account_step _ _ _ E). rewrite turns_cons, casts_cons. lia.
Qed.
Lemma owed_le s : owed s <= 3 * length (k_queue s) + 3.
Proof. unfold owed. destruct (k_pc s); cbn [weight]; lia. Qed.

(** ** A broadcast that waits keeps the worker from going round *)
Definition slack (p : wpc) : nat := match p with AtWhile | AtClean => 1 | _ => 0 end.
Lemma kept_step x l s s' : step k l s = Next s' -> kinv s -> waits x s' -> x < k_next s -> match l with Work => one (k_pc s) | _ => 0 end + slack (k_pc s') <= slack (k_pc s) /\ waits x s.
Proof.
  intros H K W L.
  assert (W0 : waits x s).
  { split; [exact L|]. intros X. apply (proj2 W). destruct l as [|c r| |]; cbn [step] in H; try (injection H as <-; exact X).
    destruct (k_pc s) eqn:P; try discriminate H; try (injection H as <-; exact X); [destruct (rev (k_queue s)); [discriminate H|]; injection H as <-; exact X|].
    injection H as <-. cbn [k_sent]. apply in_or_app. auto. }
  split; [|exact W0]. pose proof (waits_where _ _ K W0) as Hw. destruct l as [|c r| |]; cbn [step] in H; try (injection H as <-; cbn [k_pc]; lia).
  destruct (k_pc s) as [| | | |y| |] eqn:P; cbn [hand app] in Hw.
  - injection H as <-. cbn [goto k_pc one]. destruct (k_running s); cbn; lia.
  - injection H as <-. cbn. lia.
  - injection H as <-. cbn [goto k_pc one]. destruct (k_queue s); [destruct Hw|cbn; lia].
  - destruct (rev (k_queue s)); [discriminate H|]. injection H as <-. cbn. lia.
  - injection H as <-. cbn. lia.
  - injection H as <-. cbn. lia.
  - discriminate H.
Qed.
Lemma next_step l s s' : step k l s = Next s' -> k_next s <= k_next s'.
Proof.
  intros H. destruct l; cbn [step] in H; try (injection H as <-; cbn [k_next]; lia).
  destruct (k_pc s); try discriminate H; try (injection H as <-; cbn [goto k_next]; lia). destruct (rev (k_queue s)); [discriminate H|]. injection H as <-. cbn. lia.
Qed.
Lemma kept x ls : forall s s', run k ls s = Next s' -> kinv s -> x < k_next s -> waits x s' -> rounds ls s + slack (k_pc s') <= slack (k_pc s) /\ waits x s.
Proof.
  induction ls as [|l ls IH]; intros s s' H K L W; cbn [run rounds] in *; [injection H as <-; split; [lia|exact W]|]. destruct (step k l s) as [s1| |] eqn:E; try discriminate H.
  destruct (IH _ _ H) as (A & B); [eauto using kinv_step|pose proof (next_step _ _ _ E); lia|exact W|]. destruct (kept_step _ _ _ _ E K B L) as (C & D). split; [lia|exact D].
Qed.
Lemma cast_in_time c ls1 s ls2 s' x : run k ls1 (worker0 c) = Next s -> run k ls2 s = Next s' -> x < k_next s -> 3 * (length (k_queue s) + casts ls2) + 8 <= turns ls2 -> In x (k_sent s').
Proof.
  intros H1 H2 L T. pose proof (kinv_run _ _ _ (kinv0 c) H1) as K. destruct (in_dec Nat.eq_dec x (k_sent s')) as [X|X]; [exact X|exfalso].
  assert (W : waits x s'). { split; [|exact X]. clear - H2 L. revert s L H2. induction ls2 as [|l ls IH]; intros s L H; cbn [run] in H; [injection H as <-; exact L|].
    destruct (step k l s) as [s1| |] eqn:E; try discriminate H. apply (IH s1); [pose proof (next_step _ _ _ E); lia|exact H]. }
  destruct (kept x _ _ _ H2 K L W) as (A & _). pose proof (account _ _ _ H2). pose proof (owed_le s). assert (slack (k_pc s) <= 1) by (destruct (k_pc s); cbn; lia). lia.
Qed.

(** ** Requests *)
Lemma put_asked c r x l : forall i j, nth_error (nth i l []) j = Some x -> nth_error (nth i (put c r l) []) j = Some x.
Proof.
  revert c. induction l as [|y l IH]; intros c i j H; [destruct c; exact H|]. destruct c; destruct i; cbn [put nth] in *; auto. rewrite nth_error_app1; [exact H|]. apply nth_error_Some. congruence.
Qed.
Definition behind (p : wpc) : nat := match p with AtServe | Ended => 1 | _ => 0 end.
Definition place (i j r : nat) (s : worker) : Prop := nth_error (nth i (k_in s) []) j = Some r.
Lemma place_step i j r l s s' : step k l s = Next s' -> place i j r s -> In r (k_done s') \/
  exists j', place i j' r s' /\ j' + match l with Work => one (k_pc s) | _ => 0 end + behind (k_pc s) <= j + behind (k_pc s').
Proof.
  unfold place. intros H A. destruct l as [|c q| |]; cbn [step] in H.
  - injection H as <-. right. exists j. cbn [k_in k_pc]. split; [exact A|lia].
  - injection H as <-. right. exists j. cbn [k_in k_pc]. split; [now apply put_asked|lia].
  - injection H as <-. right. exists j. cbn [k_in k_pc]. split; [exact A|lia].
  - destruct (k_pc s) as [| | | |y| |] eqn:P.
    + injection H as <-. right. exists j. cbn [goto k_in k_pc one behind]. split; [exact A|]. destruct (k_running s); cbn [behind]; lia.
    + injection H as <-. cbn [k_in k_pc k_done one behind].
      assert (Li : i < length (k_in s)). { destruct (le_lt_dec (length (k_in s)) i) as [Le|Lt]; [|exact Lt]. rewrite (nth_overflow _ _ Le) in A. destruct j; discriminate A. }
      assert (I : In (nth i (k_in s) []) (k_in s)) by (apply nth_In; exact Li).
      assert (M : nth i (map (left_over k) (k_in s)) [] = left_over k (nth i (k_in s) [])).
      { rewrite (nth_indep _ [] (left_over k [])) by (rewrite map_length; exact Li). apply map_nth. }
      rewrite M. destruct k; cbn [left_over taken].
      * destruct (nth i (k_in s) []) as [|y l] eqn:N; [destruct j; discriminate A|]. destruct j as [|j]; cbn [nth_error skipn] in *.
        -- left. injection A as ->. apply in_or_app. right. apply in_flat_map. exists (r :: l). split; [exact I|left; reflexivity].
        -- right. exists j. split; [exact A|lia].
      * left. apply in_or_app. right. apply in_flat_map. eexists. split; [exact I|]. apply nth_error_In in A. exact A.
    + injection H as <-. right. exists j. cbn [goto k_in k_pc one behind]. split; [exact A|]. destruct (k_queue s); cbn [behind]; lia.
    + destruct (rev (k_queue s)); [discriminate H|]. injection H as <-. right. exists j. cbn [k_in k_pc one behind]. split; [exact A|lia].
    + injection H as <-. right. exists j. cbn [k_in k_pc one behind]. split; [exact A|lia].
    + injection H as <-. right. exists j. cbn [goto k_in k_pc one behind]. split; [exact A|lia].
    + discriminate H.
Qed.
Lemma done_step l s s' r : step k l s = Next s' -> In r (k_done s) -> In r (k_done s').
Proof.
  intros H I. destruct l; cbn [step] in H; try (injection H as <-; exact I).
  destruct (k_pc s); try discriminate H; try (injection H as <-; cbn [goto k_done]; try apply in_or_app; auto; fail). destruct (rev (k_queue s)); [discriminate H|]. injection H as <-. exact I.
Qed.
Lemma done_run ls : forall s s' r, run k ls s = Next s' -> In r (k_done s) -> In r (k_done s').
Proof. induction ls as [|l ls IH]; intros s s' r H I; cbn [run] in H; [injection H as <-; exact I|]. destruct (step k l s) as [s1| |] eqn:E; try discriminate H. eauto using done_step. Qed.
Lemma place_run i r ls : forall j s s', run k ls s = Next s' -> place i j r s -> In r (k_done s') \/ rounds ls s + behind (k_pc s) <= j + behind (k_pc s').
Proof.
  induction ls as [|l ls IH]; intros j s s' H A; cbn [run rounds] in *; [injection H as <-; right; lia|]. destruct (step k l s) as [s1| |] eqn:E; try discriminate H.
  destruct (place_step _ _ _ _ _ _ E A) as [D|(j' & A' & L)]; [left; eauto using done_run|]. destruct (IH _ _ _ H A') as [D|L']; [auto|right; lia].
Qed.
Lemma asked_in_time ls2 s s' r j : run k ls2 s = Next s' -> asked r j s -> 3 * (length (k_queue s) + casts ls2) + 4 * j + 8 <= turns ls2 -> In r (k_done s').
Proof.
  intros H (l & I & A) T. destruct (In_nth _ _ [] I) as (i & _ & E). subst l. destruct (place_run i r _ _ _ _ H A) as [D|L]; [exact D|exfalso].
  pose proof (account _ _ _ H). pose proof (owed_le s). assert (behind (k_pc s') <= 1) by (destruct (k_pc s'); cbn; lia). lia.
Qed.

(** No request is handled twice. *)
Lemma times_app r a b : times r (a ++ b) = times r a + times r b. Proof. apply count_occ_app. Qed.
Lemma times_put r q l : forall c, times r (concat (put c q l)) <= times r (concat l) + (if Nat.eqb q r then 1 else 0).
Proof.
  induction l as [|x l IH]; intros [|c]; cbn [put concat]; try (cbn; lia).
  - rewrite !times_app. unfold times at 2. cbn [count_occ]. destruct (Nat.eq_dec q r) as [->|N]; [rewrite Nat.eqb_refl; cbn; lia|rewrite (proj2 (Nat.eqb_neq q r) N); cbn; lia].
  - rewrite !times_app. specialize (IH c). lia.
Qed.
Lemma times_serve r l : times r (flat_map (taken k) l) + times r (concat (map (left_over k) l)) = times r (concat l).
Proof.
  induction l as [|x l IH]; [reflexivity|]. cbn [flat_map map concat]. rewrite !times_app. enough (times r (taken k x) + times r (left_over k x) = times r x) by lia.
  destruct k; cbn [taken left_over]; [rewrite <- times_app, firstn_skipn; reflexivity|apply Nat.add_0_r].
Qed.
Lemma handled_step l s s' r : step k l s = Next s' -> times r (k_done s' ++ concat (k_in s')) <= times r (k_done s ++ concat (k_in s)) + match l with Ask _ q => if Nat.eqb q r then 1 else 0 | _ => 0 end.
Proof.
  intros H. rewrite !times_app. destruct l as [|c q| |]; cbn [step] in H; try (injection H as <-; cbn [k_done k_in]; lia).
  - injection H as <-. cbn [k_done k_in]. pose proof (times_put r q (k_in s) c). lia.
  - destruct (k_pc s); try discriminate H; try (injection H as <-; cbn [goto k_done k_in]; lia).
    + injection H as <-. cbn [k_done k_in]. rewrite times_app. pose proof (times_serve r (k_in s)). lia.
    + destruct (rev (k_queue s)); [discriminate H|]. injection H as <-. cbn [k_done k_in]. lia.
Qed.
Lemma handled_once ls : forall s s' r, run k ls s = Next s' -> times r (k_done s' ++ concat (k_in s')) <= times r (k_done s ++ concat (k_in s)) + asks r ls.
Proof.
  induction ls as [|l ls IH]; intros s s' r H; cbn [run] in H; [injection H as <-; cbn; lia|]. destruct (step k l s) as [s1| |] eqn:E; try discriminate H.
  pose proof (handled_step _ _ _ r E). specialize (IH _ _ r H). unfold asks in *. cbn [filter]. destruct l as [|c q| |]; cbn [length] in *; try lia. destruct (Nat.eqb q r); cbn [length]; lia.
Qed.
Lemma asked_once c ls s r : run k ls (worker0 c) = Next s -> times r (k_done s) <= asks r ls.
Proof.
  intros H. pose proof (handled_once _ _ _ r H) as L. rewrite times_app in L. assert (Z : times r (k_done (worker0 c) ++ concat (k_in (worker0 c))) = 0) by (cbn; clear; induction c; [reflexivity|exact IHc]). lia.
Qed.

(** ** The end *)
Lemma stop_step l s s' : step k l s = Next s' -> k_running s = false -> k_running s' = false /\ (k_pc s' <> Ended -> match l with Work => one (k_pc s) | _ => 0 end = 0) /\ k_pc s <> Ended \/ (k_pc s = Ended /\ k_running s' = false /\ k_pc s' = Ended /\ l <> Work).
Proof.
  intros H R. destruct l; cbn [step] in H.
  - injection H as <-. cbn [k_running k_pc]. destruct (k_pc s) eqn:P; (left; split; [auto|split; [auto|discriminate]]) || (right; split; [auto|split; [auto|split; [auto|discriminate]]]).
  - injection H as <-. cbn [k_running k_pc]. destruct (k_pc s) eqn:P; (left; split; [auto|split; [auto|discriminate]]) || (right; split; [auto|split; [auto|split; [auto|discriminate]]]).
  - injection H as <-. cbn [k_running k_pc]. destruct (k_pc s) eqn:P; (left; split; [auto|split; [auto|discriminate]]) || (right; split; [auto|split; [auto|split; [auto|discriminate]]]).
  - left. destruct (k_pc s) eqn:P; try discriminate H.
    + injection H as <-. cbn [goto k_running k_pc]. rewrite R. split; [reflexivity|]. split; [intros X; now destruct X|discriminate].
    + injection H as <-. cbn [k_running]. split; [exact R|split; [reflexivity|discriminate]].
    + injection H as <-. cbn [goto k_running]. split; [exact R|split; [reflexivity|discriminate]].
    + destruct (rev (k_queue s)); [discriminate H|]. injection H as <-. cbn [k_running]. split; [exact R|split; [reflexivity|discriminate]].
    + injection H as <-. cbn [k_running]. split; [exact R|split; [reflexivity|discriminate]].
    + injection H as <-. cbn [goto k_running]. split; [exact R|split; [reflexivity|discriminate]].
Qed.
Lemma ended_stays ls : forall s s', run k ls s = Next s' -> k_pc s = Ended -> k_pc s' = Ended /\ k_sent s' = k_sent s.
Proof.
  induction ls as [|l ls IH]; intros s s' H P; cbn [run] in H; [injection H as <-; auto|]. destruct (step k l s) as [s1| |] eqn:E; try discriminate H.
  assert (X : k_pc s1 = Ended /\ k_sent s1 = k_sent s). { destruct l; cbn [step] in E; rewrite ?P in E; try discriminate E; injection E as <-; auto. }
  destruct X as (X1 & <-). eauto.
Qed.
Lemma no_round ls : forall s s', run k ls s = Next s' -> k_running s = false -> k_pc s' <> Ended -> rounds ls s = 0.
Proof.
  induction ls as [|l ls IH]; intros s s' H R P; cbn [run rounds] in *; [reflexivity|]. destruct (step k l s) as [s1| |] eqn:E; try discriminate H.
  assert (P1 : k_pc s1 <> Ended) by (intros X; apply P; exact (proj1 (ended_stays _ _ _ H X))).
  destruct (stop_step _ _ _ E R) as [(R1 & Z & _)|(_ & _ & X & _)]; [|contradiction]. rewrite (Z P1), (IH _ _ H R1 P). reflexivity.
Qed.
Lemma ended_in_time ls s s' : run k ls s = Next s' -> k_running s = false -> k_pc s' <> Ended -> turns ls <= 3 * (length (k_queue s) + casts ls) + 3.
Proof. intros H R D. pose proof (no_round _ _ _ H R D) as Z. pose proof (account _ _ _ H). pose proof (owed_le s). lia. Qed.

Lemma stopped_run ls : forall s s', run k ls s = Next s' -> k_running s = false \/ In Stop ls -> k_running s' = false.
Proof.
  induction ls as [|l ls IH]; intros s s' H O; cbn [run] in H; [injection H as <-; destruct O as [O|[]]; exact O|]. destruct (step k l s) as [s1| |] eqn:E; try discriminate H.
  apply (IH _ _ H). destruct O as [O|[->|O]]; [left; destruct (stop_step _ _ _ E O) as [(X & _)|(_ & X & _)]; exact X|left; injection E as <-; reflexivity|auto].
Qed.
Lemma destroyed_in_time c ls1 ls s s' : run k ls1 (worker0 c) = Next s -> In Stop ls1 -> run k ls s = Next s' -> k_pc s' <> Ended -> turns ls <= 3 * (length (k_queue s) + casts ls) + 3.
Proof. intros H1 I H. apply (ended_in_time _ _ _ H). exact (stopped_run _ _ _ H1 (or_intror I)). Qed.

(** ** Broadcasts that come one after the other *)
Definition busy_start : list label := [Work; Work; Cast; Ask 0 7; Stop].
Fixpoint busy (n : nat) : list label := match n with 0 => [] | S n' => busy n' ++ [Cast; Work; Work; Work] end.
Lemma busy_turns n : turns (busy n) = 3 * n /\ casts (busy n) = n.
Proof. unfold turns, casts. induction n as [|n (A & B)]; [split; reflexivity|]. cbn [busy]. rewrite !filter_app, !app_length, A, B. cbn. lia. Qed.
Lemma busy_run n : exists s', run k (busy_start ++ busy n) (worker0 1) = Next s' /\ k_running s' = false /\ k_pc s' = AtHave /\ k_queue s' = [0] /\ k_next s' = S n /\ k_sent s' = seq 1 n /\ k_in s' = [[7]] /\ k_done s' = [].
Proof.
  induction n as [|n (s & H & A1 & A2 & A3 & A4 & A5 & A6 & A7)].
  - destruct k; (eexists; split; [reflexivity|]; cbn; auto 10).
  - cbn [busy]. rewrite app_assoc, run_app, H. cbn [run step k_pc k_queue k_running goto]. rewrite A2. cbn [k_pc]. rewrite A3, A4. cbn [app rev k_pc k_queue k_sent k_in k_done k_next k_running].
    eexists. split; [reflexivity|]. cbn [k_pc k_queue k_sent k_in k_done k_next k_running]. rewrite A5, seq_S. auto 10.
Qed.
Lemma starved n : exists ls s s', run k busy_start (worker0 1) = Next s /\ run k ls s = Next s' /\ turns ls = 3 * n /\ waits 0 s /\ asked 7 0 s /\ k_running s = false /\
  waits 0 s' /\ length (k_sent s') = n /\ ~ In 7 (k_done s') /\ k_pc s' <> Ended.
Proof.
  destruct (busy_run 0) as (s & H & A1 & A2 & A3 & A4 & A5 & A6 & A7). destruct (busy_run n) as (s' & H' & B1 & B2 & B3 & B4 & B5 & B6 & B7). cbn [busy] in H. rewrite app_nil_r in H.
  exists (busy n), s, s'. split; [exact H|]. rewrite run_app, H in H'. split; [exact H'|]. split; [apply busy_turns|]. unfold waits, asked. rewrite A4, A5, A6, B4, B5, B7, B2.
  split; [split; [lia|intros []]|]. split; [exists [7]; split; [left; reflexivity|reflexivity]|]. split; [exact A1|]. split; [split; [lia|rewrite in_seq; lia]|]. split; [apply seq_length|]. split; [intros []|discriminate].
Qed.
Lemma last_lost : exists s, run k [Work; Work; Work; Cast; Stop; Work; Work] (worker0 1) = Next s /\ waits 0 s /\ forall ls s', run k ls s = Next s' -> waits 0 s'.
Proof.
  assert (X : exists s, run k [Work; Work; Work; Cast; Stop; Work; Work] (worker0 1) = Next s /\ k_pc s = Ended /\ k_sent s = [] /\ k_next s = 1) by (destruct k; (eexists; split; [reflexivity|auto])).
  destruct X as (s & H & P & Se & N). exists s. split; [exact H|]. unfold waits. rewrite Se, N. split; [split; [lia|intros []]|]. intros ls s' R. destruct (ended_stays _ _ _ R P) as (_ & ->). rewrite Se. split; [|intros []].
  clear - R N. assert (Y : 0 < k_next s) by lia. clear N. revert s Y R. induction ls as [|l ls IH]; intros s Y R; cbn [run] in R; [injection R as <-; exact Y|].
  destruct (step k l s) as [s1| |] eqn:E; try discriminate R. apply (IH s1); [pose proof (next_step _ _ _ E); lia|exact R].
Qed.
End Kind.

(** ** Not vacuous: three broadcasts and a request with another one before it; the worker is in the middle of its loop. *)
Definition got (o : outcome) : worker := match o with Next s => s | _ => worker0 0 end.
Definition mid : worker := Eval vm_compute in got (run Unix [Work; Work; Cast; Cast; Ask 0 5; Ask 0 6; Work] (worker0 2)).
Definition fin : worker := Eval vm_compute in got (run Unix (Cast :: repeat Work 30) mid).
Example in_time : run Unix [Work; Work; Cast; Cast; Ask 0 5; Ask 0 6; Work] (worker0 2) = Next mid /\ asked 6 1 mid /\ waits 0 mid /\
  run Unix (Cast :: repeat Work 30) mid = Next fin /\ 3 * (length (k_queue mid) + casts (Cast :: repeat Work 30)) + 4 * 1 + 8 <= turns (Cast :: repeat Work 30) /\
  k_sent fin = [2; 1; 0] /\ k_done fin = [5; 6] /\ k_pc fin <> Ended.
Proof.
  split; [vm_compute; reflexivity|]. split; [exists [5; 6]; split; [left; reflexivity|reflexivity]|]. split; [split; [unfold mid; cbn; lia|intros []]|]. split; [vm_compute; reflexivity|].
  split; [apply Nat.leb_le; vm_compute; reflexivity|]. split; [reflexivity|]. split; [reflexivity|discriminate].
Qed.
Definition closing : worker := Eval vm_compute in got (run Loopback [Work; Work; Cast; Stop] (worker0 1)).
Definition closed : worker := Eval vm_compute in got (run Loopback (repeat Work 5) closing).
Example ends_in_time : run Loopback [Work; Work; Cast; Stop] (worker0 1) = Next closing /\ k_running closing = false /\ run Loopback (repeat Work 5) closing = Next closed /\
  k_pc closed <> Ended /\ k_sent closed = [0] /\ turns (repeat Work 5) = 5 /\ length (k_queue closing) = 1.
Proof. split; [vm_compute; reflexivity|]. split; [reflexivity|]. split; [vm_compute; reflexivity|]. split; [discriminate|]. split; [reflexivity|]. split; reflexivity. Qed.
