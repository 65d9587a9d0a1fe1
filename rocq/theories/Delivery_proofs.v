From Coq Require Import List Arith Bool Lia.
Import ListNotations.
From Verif Require Import Collector_spec Delivery_model Delivery_spec.

Section Proofs.
Context {L E : Type} (parse : L -> option E).
Implicit Types xs a b : list (label L).
Implicit Types s : state E.
Local Notation step := (step parse).
Local Notation run := (run parse).

Lemma run_app xs ys s : run (xs ++ ys) s = match run xs s with
  | Ended s' c => match run ys s' with Ended s'' c' => Ended s'' (c ++ c') | f => f end | f => f end.
Proof.
  revert s. induction xs as [|x xs IH]; intro s; cbn [app Delivery_model.run].
  - destruct (run ys s); reflexivity.
  - destruct (step x s) as [s' c| |]; [|reflexivity|reflexivity]. rewrite IH. destruct (run xs s') as [s1 c1| |]; [|reflexivity|reflexivity].
    destruct (run ys s1); [|reflexivity|reflexivity]. rewrite app_assoc. reflexivity.
Qed.
Lemma run_split xs ys s s2 c : run (xs ++ ys) s = Ended s2 c -> exists s1 c1 c2, run xs s = Ended s1 c1 /\ run ys s1 = Ended s2 c2 /\ c = c1 ++ c2.
Proof.
  rewrite run_app. destruct (run xs s) as [s1 c1| |]; [|discriminate|discriminate]. destruct (run ys s1) as [s3 c2| |] eqn:E0; [|discriminate|discriminate].
  intro H. injection H as <- <-. exists s1, c1, c2. auto.
Qed.
Lemma run_snoc xs x s s2 c : run (xs ++ [x]) s = Ended s2 c -> exists s1 c1 o, run xs s = Ended s1 c1 /\ step x s1 = Next s2 o /\ c = c1 ++ match o with Some y => [y] | None => [] end.
Proof.
  intro H. apply run_split in H as (s1 & c1 & c2 & H1 & H2 & ->). exists s1, c1. cbn in H2. destruct (step x s1) as [s' o| |]; [|discriminate|discriminate].
  injection H2 as <- <-. exists o. rewrite app_nil_r. auto.
Qed.

(** ** Subscribers *)
Lemma modify_length i f us : length (modify i f us) = length us.
Proof. revert i. induction us as [|u us IH]; intros [|i]; cbn; auto. Qed.
Lemma modify_same i f us : nth_error (modify i f us) i = option_map f (nth_error us i).
Proof. revert i. induction us as [|u us IH]; intros [|i]; cbn; auto. Qed.
Lemma modify_other i j f us : i <> j -> nth_error (modify i f us) j = nth_error us j.
Proof. revert i j. induction us as [|u us IH]; intros [|i] [|j] H; cbn; auto; congruence. Qed.
Definition members s : list nat :=
  match d_phase s with
  | Idle => d_set s
  | Pass _ kept todo => kept ++ todo
  | Seen _ kept i todo | Ready _ kept i todo | Calling _ kept i todo => kept ++ i :: todo
  end.
Record inv (n : nat) s : Prop := { inv_length : length (d_subs s) = n; inv_members : forall i, In i (members s) -> i < n; inv_nodup : NoDup (members s) }.
Lemma NoDup_remove_mid (a b : list nat) x : NoDup (a ++ x :: b) -> NoDup (a ++ b).
Proof. apply NoDup_remove_1. Qed.
Lemma NoDup_insert (l1 l2 : list nat) x : NoDup (l1 ++ l2) -> ~ In x (l1 ++ l2) -> NoDup (l1 ++ x :: l2).
Proof.
  intros H Hx. apply NoDup_Add with (a := x) (l := l1 ++ l2); [apply Add_app|auto].
Qed.
Lemma members_same s s' x o : step x s = Next s' o -> (forall at_, x <> Subscribe at_) -> x <> Halt ->
  members s' = members s \/ exists e kept i todo, d_phase s = Pass e kept (i :: todo) /\ active s i = false /\ members s' = kept ++ todo.
Proof.
  intros H Hs Hh. unfold Delivery_model.step, go in H. destruct x; try congruence.
  - destruct (d_phase s) eqn:P; try discriminate. destruct (d_set s) eqn:S; [injection H as <- _; left; reflexivity|]. destruct (parse l); [|discriminate].
    injection H as <- _. left. unfold members. rewrite P. cbn. congruence.
  - destruct (d_phase s) as [|e kept todo| | |] eqn:P; try discriminate. destruct todo as [|i todo].
    + injection H as <- _. left. unfold members. rewrite P. cbn. rewrite app_nil_r. reflexivity.
    + destruct (active s i) eqn:A; injection H as <- _; [left; unfold members; rewrite P; reflexivity|]. right. exists e, kept, i, todo. auto.
  - destruct (d_phase s) as [| |e kept i todo| |] eqn:P; try discriminate. left. destruct (callable s i); injection H as <- _; unfold members; rewrite P; cbn; [reflexivity|].
    rewrite <- app_assoc. reflexivity.
  - destruct (d_phase s) as [| | |e kept i todo|] eqn:P; try discriminate. left. destruct (callable s i); [|discriminate]. injection H as <- _. unfold members. rewrite P. reflexivity.
  - destruct (d_phase s) as [| | | |e kept i todo] eqn:P; try discriminate. left. injection H as <- _. unfold members. rewrite P. cbn. rewrite <- app_assoc. reflexivity.
  - left. destruct (i <? length (d_subs s)); [|discriminate]. injection H as <- _. reflexivity.
  - left. destruct (i <? length (d_subs s)); [|discriminate]. destruct (d_phase s) eqn:P; try (injection H as <- _; unfold members; rewrite P; reflexivity).
    destruct (i0 =? i); [discriminate|]. injection H as <- _. unfold members; rewrite P; reflexivity.
  - left. destruct (i <? length (d_subs s)); [|discriminate]. injection H as <- _. reflexivity.
Qed.
Lemma subs_same s s' x o : step x s = Next s' o -> (forall at_, x <> Subscribe at_) -> length (d_subs s') = length (d_subs s) /\
  forall i, (active s' i = active s i \/ x = Deactivate i /\ active s' i = false) /\ (callable s' i = callable s i \/ x = Clear i /\ callable s' i = false).
Proof.
  intros H Hs. unfold Delivery_model.step, go in H. unfold active, callable.
  assert (G : d_subs s' = d_subs s -> length (d_subs s') = length (d_subs s) /\
    forall i, (active s' i = active s i \/ x = Deactivate i /\ active s' i = false) /\ (callable s' i = callable s i \/ x = Clear i /\ callable s' i = false)).
  { intro Es. rewrite Es. split; [reflexivity|]. intro i. unfold active, callable. rewrite Es. auto. }
  unfold active, callable in G.
  destruct x.
  - apply G. destruct (d_phase s); try discriminate. destruct (d_set s); [injection H as <- _; reflexivity|]. destruct (parse l); [|discriminate]. injection H as <- _. reflexivity.
  - apply G. destruct (d_phase s) as [|e kept [|i todo]| | |]; try discriminate; [injection H as <- _; reflexivity|]. destruct (active s i); injection H as <- _; reflexivity.
  - apply G. destruct (d_phase s) as [| |e kept i todo| |]; try discriminate. destruct (callable s i); injection H as <- _; reflexivity.
  - apply G. destruct (d_phase s) as [| | |e kept i todo|]; try discriminate. destruct (callable s i); [|discriminate]. injection H as <- _; reflexivity.
  - apply G. destruct (d_phase s); try discriminate. injection H as <- _; reflexivity.
  - exfalso. exact (Hs _ eq_refl).
  - destruct (i <? length (d_subs s)); [|discriminate]. injection H as <- _. cbn [d_subs]. rewrite modify_length. split; [reflexivity|]. intro j.
    destruct (Nat.eq_dec i j) as [<-|Hij]; [|rewrite modify_other by exact Hij; auto]. rewrite modify_same. destruct (nth_error (d_subs s) i); cbn; auto.
  - destruct (i <? length (d_subs s)); [|discriminate].
    assert (Es : d_subs s' = modify i (fun u => {| u_active := u_active u; u_call := false |}) (d_subs s)).
    { destruct (d_phase s); try (injection H as <- _; reflexivity). destruct (i0 =? i); [discriminate|]. injection H as <- _; reflexivity. }
    rewrite Es, modify_length. split; [reflexivity|]. intro j.
    destruct (Nat.eq_dec i j) as [<-|Hij]; [|rewrite modify_other by exact Hij; auto]. rewrite modify_same. destruct (nth_error (d_subs s) i); cbn; auto.
  - apply G. destruct (i <? length (d_subs s)); [|discriminate]. injection H as <- _; reflexivity.
  - apply G. destruct (d_phase s); try discriminate. injection H as <- _; reflexivity.
Qed.
Lemma disable_takes s s' x o i : step x s = Next s' o -> disables i x -> active s' i = false \/ callable s' i = false.
Proof.
  intros H [->| ->]; unfold Delivery_model.step in H.
  - left. destruct (i <? length (d_subs s)); [|discriminate]. injection H as <- _. unfold active. cbn. rewrite modify_same. destruct (nth_error (d_subs s) i); reflexivity.
  - right. destruct (i <? length (d_subs s)); [|discriminate]. unfold callable.
    assert (Es : d_subs s' = modify i (fun u => {| u_active := u_active u; u_call := false |}) (d_subs s)).
    { destruct (d_phase s); try (injection H as <- _; reflexivity). destruct (i0 =? i); [discriminate|]. injection H as <- _; reflexivity. }
    rewrite Es, modify_same. destruct (nth_error (d_subs s) i); reflexivity.
Qed.
Lemma subscribe_step at_ s s' o : step (Subscribe at_) s = Next s' o -> d_phase s = Idle /\ o = None /\
  s' = {| d_subs := d_subs s ++ [{| u_active := true; u_call := true |}]; d_set := firstn at_ (d_set s) ++ length (d_subs s) :: skipn at_ (d_set s); d_phase := Idle |}.
Proof. unfold Delivery_model.step. destruct (d_phase s); try discriminate. intro H. injection H as <- <-. auto. Qed.
Lemma halt_step s s' o : step Halt s = Next s' o -> d_phase s = Idle /\ o = None /\ s' = {| d_subs := d_subs s; d_set := []; d_phase := Idle |}.
Proof. unfold Delivery_model.step. destruct (d_phase s); try discriminate. intro H. injection H as <- <-. auto. Qed.
Definition sub_count (x : label L) : nat := match x with Subscribe _ => 1 | _ => 0 end.
Lemma subscriptions_snoc xs x : subscriptions (xs ++ [x]) = subscriptions xs + sub_count x.
Proof. unfold subscriptions. rewrite filter_app, app_length. destruct x; reflexivity. Qed.
Lemma label_case (x : label L) : (exists at_, x = Subscribe at_) \/ x = Halt \/ ((forall at_, x <> Subscribe at_) /\ x <> Halt).
Proof. destruct x; try (right; right; split; [intro|]; discriminate); [left; eauto|right; left; reflexivity]. Qed.
Lemma inv_step n s x s' o : inv n s -> step x s = Next s' o -> inv (n + sub_count x) s'.
Proof.
  intros [Hl Hm Hn] H. destruct (label_case x) as [(at_ & ->)|[->|[Hx Hh]]].
  - apply subscribe_step in H as (P & _ & ->). unfold members in *. rewrite P in *. rewrite <- (firstn_skipn at_ (d_set s)) in Hm, Hn. constructor; cbn.
    + rewrite app_length. cbn. lia.
    + intros i Hi. rewrite in_app_iff in Hi. specialize (Hm i). rewrite in_app_iff in Hm. cbn in Hi. intuition lia.
    + apply NoDup_insert; [exact Hn|]. intro G. apply Hm in G. lia.
  - apply halt_step in H as (P & _ & ->). constructor; cbn; [lia|intros i []|constructor].
  - pose proof (subs_same s s' x o H Hx) as [Hlen _]. replace (sub_count x) with 0 by (destruct x; try reflexivity; exfalso; eapply Hx; reflexivity).
    destruct (members_same s s' x o H Hx Hh) as [Em|(e & kept & i & todo & P & _ & Em)]; constructor; rewrite ?Em; try lia.
    + intros i Hi. apply Hm in Hi. lia.
    + exact Hn.
    + intros j Hj. unfold members in Hm. rewrite P in Hm. specialize (Hm j). rewrite in_app_iff in *. cbn in Hm. intuition lia.
    + unfold members in Hn. rewrite P in Hn. eapply NoDup_remove_mid. exact Hn.
Qed.
Lemma inv_run xs s c : run xs state0 = Ended s c -> inv (subscriptions xs) s.
Proof.
  revert s c. induction xs as [|x xs IH] using rev_ind; intros s c H.
  - injection H as <- _. constructor; [reflexivity|intros i []|constructor].
  - apply run_snoc in H as (s1 & c1 & o & H1 & H2 & _). rewrite subscriptions_snoc. eapply inv_step; [eapply IH; exact H1|exact H2].
Qed.

(** ** Subscribed and active *)
Lemma live_snoc i xs x : live i (xs ++ [x]) <-> (live i xs /\ x <> Halt /\ ~ disables i x) \/ (exists at_, x = Subscribe at_) /\ subscriptions xs = i.
Proof.
  split.
  - intros (a & at_ & b & Ex & Hi & Hh & Hd). destruct b as [|y b _] using rev_ind.
    + right. apply app_inj_tail in Ex as [-> ->]. eauto.
    + left. rewrite app_comm_cons, app_assoc in Ex. apply app_inj_tail in Ex as [-> ->]. split.
      * exists a, at_, b. repeat split; auto; [intro G; apply Hh; apply in_or_app; auto|]. intros z Hz. apply Hd. apply in_or_app. auto.
      * split; [intros ->; apply Hh; apply in_or_app; right; left; reflexivity|]. apply Hd. apply in_or_app. right. left. reflexivity.
  - intros [((a & at_ & b & -> & Hi & Hh & Hd) & H1 & H2)|((at_ & ->) & Hi)].
    + exists a, at_, (b ++ [x]). rewrite <- app_assoc. repeat split; auto.
      * intro G. apply in_app_or in G as [G|[G|[]]]; auto.
      * intros z Hz. apply in_app_or in Hz as [Hz|[<-|[]]]; auto.
    + exists xs, at_, []. repeat split; auto.
Qed.
Lemma in_firstn_skipn (l : list nat) n x : In x l <-> In x (firstn n l ++ skipn n l).
Proof. rewrite firstn_skipn. reflexivity. Qed.
Lemma live_state xs s c i : run xs state0 = Ended s c -> (live i xs <-> In i (members s) /\ active s i = true /\ callable s i = true).
Proof.
  revert s c. induction xs as [|x xs IH] using rev_ind; intros s c H.
  - injection H as <- _. split; [intros (a & at_ & b & Ex & _); destruct a; discriminate|intros ([] & _)].
  - pose proof (inv_run _ _ _ H) as Inv. apply run_snoc in H as (s1 & c1 & o & H1 & H2 & _). specialize (IH s1 c1 H1). pose proof (inv_run _ _ _ H1) as [Hl Hm Hn].
    rewrite live_snoc. destruct (label_case x) as [(at_ & ->)|[->|[Hx Hh]]].
    + pose proof (subscribe_step _ _ _ _ H2) as (P & _ & ->). unfold members. cbn [d_phase d_set]. unfold members in IH, Hm. rewrite P in IH, Hm.
      assert (A : forall j, j <> length (d_subs s1) -> nth_error (d_subs s1 ++ [{| u_active := true; u_call := true |}]) j = nth_error (d_subs s1) j).
      { intros j Hj. destruct (Nat.lt_ge_cases j (length (d_subs s1))); [apply nth_error_app1; assumption|]. rewrite (proj2 (nth_error_None (d_subs s1) j)) by lia. apply nth_error_None. rewrite app_length. cbn. lia. }
      destruct (Nat.eq_dec i (length (d_subs s1))) as [->|Hi].
      * split; [intros _|intros _; right; split; [eauto|symmetry; exact Hl]]. split; [apply in_or_app; right; left; reflexivity|]. unfold active, callable. cbn [d_subs].
        rewrite nth_error_app2, Nat.sub_diag by lia. auto.
      * unfold active, callable in *. cbn [d_subs]. rewrite (A i Hi). rewrite in_app_iff. cbn [In]. rewrite (in_firstn_skipn (d_set s1) at_) in IH. rewrite in_app_iff in IH. unfold disables. split.
        -- intros [[G _]|[_ G]]; [|congruence]. apply IH in G. tauto.
        -- intros [G K]. left. split; [apply IH; split; [|exact K]; intuition congruence|]. split; [discriminate|intros [?|?]; discriminate].
    + pose proof (halt_step _ _ _ H2) as (P & _ & ->). split; [intros [(_ & G & _)|((at_ & G) & _)]; congruence|intros ([] & _)].
    + pose proof (subs_same _ _ _ _ H2 Hx) as [Hlen Hs]. split.
      * intros [(G & _ & Hd)|((at_ & G) & _)]; [|exfalso; exact (Hx at_ G)]. apply IH in G as (G1 & G2 & G3). unfold disables in Hd. specialize (Hs i) as [[Ha|[Ha _]] [Hc|[Hc _]]]; try (exfalso; apply Hd; auto; fail).
        rewrite Ha, Hc. split; [|auto]. destruct (members_same _ _ _ _ H2 Hx Hh) as [->|(e & kept & j & todo & P & A & ->)]; [exact G1|]. unfold members in G1. rewrite P in G1.
        rewrite in_app_iff in *. cbn in G1. destruct G1 as [G1|[<-|G1]]; auto. congruence.
      * intros (G1 & G2 & G3). left. split; [|split; [exact Hh|]].
        -- apply IH. specialize (Hs i) as [[Ha|[_ Ha]] [Hc|[_ Hc]]]; try congruence. split; [|split; congruence].
           destruct (members_same _ _ _ _ H2 Hx Hh) as [<-|(e & kept & j & todo & P & A & Em)]; [exact G1|]. unfold members. rewrite P. rewrite Em in G1. rewrite in_app_iff in *. cbn. tauto.
        -- intro Hd. pose proof (disable_takes _ _ _ _ i H2 Hd) as [K|K]; congruence.
Qed.

(** ** A pass *)
Definition pass_event (p : phase E) : option E := match p with Idle => None | Pass e _ _ | Seen e _ _ _ | Ready e _ _ _ | Calling e _ _ _ => Some e end.
(** Still to be called in this pass. *)
Definition pending (p : phase E) : list nat := match p with Idle => [] | Pass _ _ todo => todo | Seen _ _ i todo | Ready _ _ i todo => i :: todo | Calling _ _ _ todo => todo end.
Definition waiting (i : nat) (p : phase E) : Prop := exists e kept todo, p = Seen e kept i todo \/ p = Ready e kept i todo.
(** What one step of a pass does. *)
Lemma pass_step x s s' o : step x s = Next s' o -> (forall l, x <> Line l) ->
  (match pass_event (d_phase s) with
   | None => pass_event (d_phase s') = None
   | Some e => pass_event (d_phase s') = Some e \/ pass_event (d_phase s') = None end) /\
  match o with
  | None => pending (d_phase s') = pending (d_phase s) \/
            exists j, pending (d_phase s) = j :: pending (d_phase s') /\ (~ waiting j (d_phase s) /\ active s j = false \/ waiting j (d_phase s) /\ callable s j = false)
  | Some (j, e) => pass_event (d_phase s) = Some e /\ pending (d_phase s) = j :: pending (d_phase s') /\ callable s j = true /\ waiting j (d_phase s)
  end /\ (forall j, waiting j (d_phase s') -> waiting j (d_phase s) \/ active s j = true).
Proof.
  intros H Hl. assert (G : d_phase s' = d_phase s -> o = None -> 
    (match pass_event (d_phase s) with None => pass_event (d_phase s') = None | Some e => pass_event (d_phase s') = Some e \/ pass_event (d_phase s') = None end) /\
    match o with
    | None => pending (d_phase s') = pending (d_phase s) \/
              exists j, pending (d_phase s) = j :: pending (d_phase s') /\ (~ waiting j (d_phase s) /\ active s j = false \/ waiting j (d_phase s) /\ callable s j = false)
    | Some (j, e) => pass_event (d_phase s) = Some e /\ pending (d_phase s) = j :: pending (d_phase s') /\ callable s j = true /\ waiting j (d_phase s)
    end /\ (forall j, waiting j (d_phase s') -> waiting j (d_phase s) \/ active s j = true)).
  { intros -> ->. split; [destruct (pass_event (d_phase s)); auto|]. split; auto. }
  assert (NW : forall j, ~ waiting j (Idle : phase E)) by (intros j (? & ? & ? & [?|?]); discriminate).
  assert (NP : forall j e kept todo, ~ waiting j (Pass e kept todo : phase E)) by (intros j ? ? ? (? & ? & ? & [?|?]); discriminate).
  unfold Delivery_model.step, go in H. destruct x as [l| | | | |at_|i|i|i|].
  - exfalso. exact (Hl l eq_refl).
  - clear G. destruct (d_phase s) as [|e kept [|i todo]| | |] eqn:P; try discriminate.
    + injection H as <- <-. cbn. split; [auto|]. split; [auto|]. intros j Hj. exfalso. exact (NW j Hj).
    + destruct (active s i) eqn:A; injection H as <- <-; cbn [d_phase pass_event pending].
      * split; [auto|]. split; [auto|]. intros j (e' & k' & t' & [Hj|Hj]); [injection Hj as <- <- <- <-; auto|discriminate].
      * split; [auto|]. split; [right; exists i; split; [reflexivity|]; left; split; [apply NP|exact A]|]. intros j Hj. exfalso. exact (NP _ _ _ _ Hj).
  - clear G. destruct (d_phase s) as [| |e kept i todo| |] eqn:P; try discriminate.
    destruct (callable s i) eqn:C; injection H as <- <-; cbn [d_phase pass_event pending].
    + split; [auto|]. split; [auto|]. intros j (e' & k' & t' & [Hj|Hj]); [discriminate|]. injection Hj as <- <- <- <-. left. exists e, kept, todo. auto.
    + split; [auto|]. split; [right; exists i; split; [reflexivity|]; right; split; [exists e, kept, todo; auto|exact C]|]. intros j Hj. exfalso. exact (NP _ _ _ _ Hj).
  - clear G. destruct (d_phase s) as [| | |e kept i todo|] eqn:P; try discriminate. destruct (callable s i) eqn:C; [|discriminate]. injection H as <- <-. cbn [d_phase pass_event pending].
    split; [auto|]. split; [split; [reflexivity|split; [reflexivity|split; [exact C|exists e, kept, todo; auto]]]|]. intros j (? & ? & ? & [?|?]); discriminate.
  - clear G. destruct (d_phase s) as [| | | |e kept i todo] eqn:P; try discriminate. injection H as <- <-. cbn [d_phase pass_event pending].
    split; [auto|]. split; [auto|]. intros j Hj. exfalso. exact (NP _ _ _ _ Hj).
  - destruct (d_phase s) eqn:P; try discriminate. injection H as <- <-. apply G; reflexivity.
  - destruct (i <? length (d_subs s)); [|discriminate]. injection H as <- <-. apply G; reflexivity.
  - destruct (i <? length (d_subs s)); [|discriminate]. destruct (d_phase s) eqn:P; try (injection H as <- <-; apply G; reflexivity). destruct (i0 =? i); [discriminate|]. injection H as <- <-; apply G; reflexivity.
  - destruct (i <? length (d_subs s)); [|discriminate]. injection H as <- <-. apply G; auto.
  - destruct (d_phase s) eqn:P; try discriminate. injection H as <- <-. apply G; reflexivity.
Qed.
Lemma keeps_inactive x s s' o i : step x s = Next s' o -> i < length (d_subs s) -> active s i = false -> active s' i = false.
Proof.
  intros H Hi Ha. destruct (label_case x) as [(at_ & ->)|Hx].
  - apply subscribe_step in H as (_ & _ & ->). unfold active in *. cbn. rewrite nth_error_app1 by exact Hi. exact Ha.
  - assert (Hx' : forall at_, x <> Subscribe at_) by (destruct Hx as [->|[Hx _]]; [discriminate|exact Hx]). pose proof (subs_same _ _ _ _ H Hx') as [_ G]. destruct (G i) as [[K|[_ K]] _]; congruence.
Qed.
Lemma keeps_uncallable x s s' o i : step x s = Next s' o -> i < length (d_subs s) -> callable s i = false -> callable s' i = false.
Proof.
  intros H Hi Ha. destruct (label_case x) as [(at_ & ->)|Hx].
  - apply subscribe_step in H as (_ & _ & ->). unfold callable in *. cbn. rewrite nth_error_app1 by exact Hi. exact Ha.
  - assert (Hx' : forall at_, x <> Subscribe at_) by (destruct Hx as [->|[Hx _]]; [discriminate|exact Hx]). pose proof (subs_same _ _ _ _ H Hx') as [_ G]. destruct (G i) as [_ [K|[_ K]]]; congruence.
Qed.
Lemma keeps_live x s s' o i : step x s = Next s' o -> i < length (d_subs s) -> ~ disables i x -> active s i = true -> callable s i = true -> active s' i = true /\ callable s' i = true.
Proof.
  intros H Hi Hd Ha Hc. destruct (label_case x) as [(at_ & ->)|Hx].
  - apply subscribe_step in H as (_ & _ & ->). unfold active, callable in *. cbn. rewrite nth_error_app1 by exact Hi. auto.
  - assert (Hx' : forall at_, x <> Subscribe at_) by (destruct Hx as [->|[Hx _]]; [discriminate|exact Hx]). pose proof (subs_same _ _ _ _ H Hx') as [_ G]. unfold disables in Hd.
    destruct (G i) as [[K|[K _]] [K'|[K' _]]]; try (exfalso; apply Hd; auto; fail). split; congruence.
Qed.
Lemma grows x s s' o : step x s = Next s' o -> length (d_subs s) <= length (d_subs s').
Proof.
  intro H. destruct (label_case x) as [(at_ & ->)|Hx].
  - apply subscribe_step in H as (_ & _ & ->). cbn. rewrite app_length. lia.
  - assert (Hx' : forall at_, x <> Subscribe at_) by (destruct Hx as [->|[Hx _]]; [discriminate|exact Hx]). pose proof (subs_same _ _ _ _ H Hx') as [G _]. lia.
Qed.
Lemma for_cons (i : nat) (o : option (nat * E)) (cs : list (nat * E)) :
  for_ i (match o with Some y => [y] | None => [] end ++ cs) = match o with Some (j, e) => if j =? i then e :: for_ i cs else for_ i cs | None => for_ i cs end.
Proof. destruct o as [[j e]|]; [|reflexivity]. unfold for_. cbn. destruct (j =? i); reflexivity. Qed.
Lemma run_cons x xs s s2 c : run (x :: xs) s = Ended s2 c -> exists s1 o c', step x s = Next s1 o /\ run xs s1 = Ended s2 c' /\ c = match o with Some y => [y] | None => [] end ++ c'.
Proof. cbn. destruct (step x s) as [s1 o| |]; [|discriminate|discriminate]. destruct (run xs s1) as [s3 c'| |] eqn:R; [|discriminate|discriminate]. intro H. injection H as <- <-. eauto 10. Qed.
Lemma no_line_cons x xs : no_line (x :: xs) -> (forall l, x <> Line l) /\ no_line xs.
Proof. intro H. split; [intros l ->; exact (H l (or_introl eq_refl))|]. intros l G. exact (H l (or_intror G)). Qed.
(** Not to be called any more in this pass. *)
Definition barred (i : nat) s : Prop := ~ In i (pending (d_phase s)) \/ i < length (d_subs s) /\ (~ waiting i (d_phase s) /\ active s i = false \/ callable s i = false).
Lemma barred_run xs : forall s s' c i, no_line xs -> NoDup (pending (d_phase s)) -> barred i s -> run xs s = Ended s' c -> for_ i c = [].
Proof.
  induction xs as [|x xs IH]; intros s s' c i Hn Hd Hb H; [injection H as _ <-; reflexivity|].
  apply no_line_cons in Hn as [Hx Hn]. apply run_cons in H as (s1 & o & c' & H1 & H2 & ->). rewrite for_cons. pose proof (pass_step _ _ _ _ H1 Hx) as (_ & Ho & Hw).
  assert (Hsub : exists pre, pending (d_phase s) = pre ++ pending (d_phase s1)).
  { destruct o as [[j e]|]; [destruct Ho as (_ & -> & _); exists [j]; reflexivity|]. destruct Ho as [->|(j & -> & _)]; [exists []|exists [j]]; reflexivity. }
  destruct Hsub as (pre & Hpre). assert (Hd1 : NoDup (pending (d_phase s1))) by (rewrite Hpre in Hd; clear - Hd; induction pre; [exact Hd|apply IHpre; inversion Hd; assumption]).
  assert (Hb1 : barred i s1).
  { destruct Hb as [Hb|(Hi & Hb)]; [left; intro G; apply Hb; rewrite Hpre; apply in_or_app; auto|]. right. pose proof (grows _ _ _ _ H1). split; [lia|].
    destruct Hb as [[Hb1 Hb2]|Hb].
    - left. split; [intro G; apply Hw in G as [G|G]; [exact (Hb1 G)|congruence]|eapply keeps_inactive; eassumption].
    - right. eapply keeps_uncallable; eassumption. }
  specialize (IH s1 s' c' i Hn Hd1 Hb1 H2). destruct o as [[j e]|]; [|exact IH]. destruct (Nat.eqb_spec j i) as [->|]; [|exact IH].
  exfalso. destruct Ho as (_ & Hp & Hc & Hwi). destruct Hb as [Hb|(_ & [[Hb _]|Hb])]; [apply Hb; rewrite Hp; left; reflexivity|exact (Hb Hwi)|congruence].
Qed.
Lemma nodup_step x s s1 o : step x s = Next s1 o -> (forall l, x <> Line l) -> NoDup (pending (d_phase s)) -> NoDup (pending (d_phase s1)).
Proof.
  intros H Hx Hd. pose proof (pass_step _ _ _ _ H Hx) as (_ & Ho & _). destruct o as [[j e]|]; [destruct Ho as (_ & Hp & _); rewrite Hp in Hd; inversion Hd; assumption|].
  destruct Ho as [->|(j & Hp & _)]; [exact Hd|]. rewrite Hp in Hd. inversion Hd; assumption.
Qed.
(** At most once. *)
Lemma once_run xs : forall s s' c i, no_line xs -> NoDup (pending (d_phase s)) -> run xs s = Ended s' c -> for_ i c = [] \/ exists e, pass_event (d_phase s) = Some e /\ for_ i c = [e].
Proof.
  induction xs as [|x xs IH]; intros s s' c i Hn Hd H; [injection H as _ <-; left; reflexivity|].
  apply no_line_cons in Hn as [Hx Hn]. apply run_cons in H as (s1 & o & c' & H1 & H2 & ->). rewrite for_cons. pose proof (pass_step _ _ _ _ H1 Hx) as (He & Ho & Hw).
  pose proof (nodup_step _ _ _ _ H1 Hx Hd) as Hd1. specialize (IH s1 s' c' i Hn Hd1 H2).
  assert (G : for_ i c' = [] \/ exists e, pass_event (d_phase s) = Some e /\ for_ i c' = [e]).
  { destruct IH as [IH|(e & IH1 & IH2)]; [left; exact IH|]. right. exists e. split; [|exact IH2]. destruct (pass_event (d_phase s)) as [e'|]; [|congruence]. destruct He; congruence. }
  destruct o as [[j e]|]; [|exact G]. destruct (Nat.eqb_spec j i) as [->|]; [|exact G]. right. destruct Ho as (Ee & Hp & _). exists e. split; [exact Ee|].
  f_equal. refine (barred_run xs s1 s' c' i Hn Hd1 _ H2). left. rewrite Hp in Hd. inversion Hd; assumption.
Qed.
(** And once if it stays active. *)
Lemma due_run xs : forall s s' c i e, no_line xs -> NoDup (pending (d_phase s)) -> pass_event (d_phase s) = Some e -> In i (pending (d_phase s)) -> i < length (d_subs s) ->
  active s i = true -> callable s i = true -> (forall x, In x xs -> ~ disables i x) -> d_phase s' = Idle -> run xs s = Ended s' c -> for_ i c = [e].
Proof.
  induction xs as [|x xs IH]; intros s s' c i e Hn Hd He Hi Hlt Ha Hc Hx' Hidle H.
  - injection H as <- _. rewrite Hidle in Hi. destruct Hi.
  - apply no_line_cons in Hn as [Hx Hn]. apply run_cons in H as (s1 & o & c' & H1 & H2 & ->). rewrite for_cons. pose proof (pass_step _ _ _ _ H1 Hx) as (He1 & Ho & Hw).
    pose proof (nodup_step _ _ _ _ H1 Hx Hd) as Hd1. rewrite He in He1. pose proof (grows _ _ _ _ H1) as Hg.
    pose proof (keeps_live _ _ _ _ i H1 Hlt (Hx' x (or_introl eq_refl)) Ha Hc) as [Ha1 Hc1].
    assert (K : In i (pending (d_phase s1)) -> for_ i c' = [e]).
    { intro Hi1. apply (IH s1 s' c' i e); auto; [|lia|intros y Hy; apply Hx'; right; exact Hy]. destruct He1 as [He1|He1]; [exact He1|]. exfalso. destruct (d_phase s1); try discriminate. destruct Hi1. }
    destruct o as [[j e']|].
    + destruct Ho as (Ee & Hp & _). rewrite He in Ee. injection Ee as <-. rewrite Hp in Hi. destruct (Nat.eqb_spec j i) as [->|Hji].
      * f_equal. refine (barred_run xs s1 s' c' i Hn Hd1 _ H2). left. rewrite Hp in Hd. inversion Hd; assumption.
      * apply K. destruct Hi as [Hi|Hi]; [congruence|exact Hi].
    + apply K. destruct Ho as [->|(j & Hp & Hj)]; [exact Hi|]. rewrite Hp in Hi. destruct Hi as [<-|Hi]; [|exact Hi]. destruct Hj as [[_ Hj]|[_ Hj]]; congruence.
Qed.
Lemma line_step l s s' o : step (Line l) s = Next s' o -> d_phase s = Idle /\ o = None /\ d_subs s' = d_subs s /\
  (d_set s = [] /\ s' = s \/ exists e, parse l = Some e /\ d_phase s' = Pass e [] (d_set s)).
Proof.
  unfold Delivery_model.step. destruct (d_phase s) eqn:P; try discriminate. destruct (d_set s) eqn:D; [intro H; injection H as <- <-; auto 10|]. destruct (parse l) as [e|]; [|discriminate].
  intro H. injection H as <- <-. cbn. split; [reflexivity|]. split; [reflexivity|]. split; [reflexivity|]. right. exists e. auto.
Qed.
(** Everything about one line. *)
Lemma line_lemma xs l ys s c : run (xs ++ Line l :: ys) state0 = Ended s c -> no_line ys ->
  exists s0 c1 c2, run xs state0 = Ended s0 c1 /\ c = c1 ++ c2 /\ forall i,
    (for_ i c2 = [] \/ exists e, parse l = Some e /\ for_ i c2 = [e]) /\
    (gone i xs -> for_ i c2 = []) /\
    (live i xs -> (forall x, In x ys -> ~ disables i x) -> idle s -> exists e, parse l = Some e /\ for_ i c2 = [e]).
Proof.
  intros H Hn. apply run_split in H as (s0 & c1 & c2 & H1 & H2 & ->). exists s0, c1, c2. split; [exact H1|]. split; [reflexivity|]. intro i.
  apply run_cons in H2 as (s1 & o & c' & H2 & H3 & ->). apply line_step in H2 as (P & -> & Es & Hl). cbn [app].
  pose proof (inv_run _ _ _ H1) as [Hlen Hm Hd]. pose proof (live_state _ _ _ i H1) as Hlive. unfold members in Hm, Hd, Hlive. rewrite P in *.
  destruct Hl as [[D ->]|(e & Ee & P1)].
  - assert (Z : for_ i c' = []). { apply (barred_run ys s0 s c' i Hn); [rewrite P; constructor| |exact H3]. left. rewrite P. intros []. }
    split; [left; exact Z|]. split; [intros _; exact Z|]. intros G. apply Hlive in G as (G & _). rewrite D in G. destruct G.
  - assert (Hp : NoDup (pending (d_phase s1))) by (rewrite P1; exact Hd). split; [|split].
    + destruct (once_run ys s1 s c' i Hn Hp H3) as [G|(e' & G1 & G2)]; [left; exact G|]. right. exists e'. rewrite P1 in G1. cbn in G1. split; congruence.
    + intro G. unfold gone in G. rewrite Hlive in G. refine (barred_run ys s1 s c' i Hn Hp _ H3).
      destruct (in_dec Nat.eq_dec i (d_set s0)) as [Hin|Hin]; [|left; rewrite P1; exact Hin]. right. rewrite Es. split; [rewrite Hlen; apply Hm; exact Hin|].
      unfold active, callable in *. rewrite Es. destruct (match nth_error (d_subs s0) i with Some u => u_active u | None => false end); [|left; split; [|reflexivity]].
      * right. destruct (match nth_error (d_subs s0) i with Some u => u_call u | None => false end); [|reflexivity]. exfalso. apply G. auto.
      * intros (? & ? & ? & [K|K]); rewrite P1 in K; discriminate.
    + intros G Hnd Hidle. apply Hlive in G as (Gin & Ga & Gc). exists e. split; [exact Ee|]. apply (due_run ys s1 s c' i e Hn Hp); auto; rewrite ?P1; cbn; auto; rewrite ?Es, ?Hlen; auto.
      * unfold active in *. rewrite Es. exact Ga.
      * unfold callable in *. rewrite Es. exact Gc.
Qed.

(** ** Never again *)
Lemma uncallable_run xs : forall s s' c i, i < length (d_subs s) -> callable s i = false -> run xs s = Ended s' c -> for_ i c = [].
Proof.
  induction xs as [|x xs IH]; intros s s' c i Hi Hc H; [injection H as _ <-; reflexivity|]. apply run_cons in H as (s1 & o & c' & H1 & H2 & ->). rewrite for_cons.
  assert (G : for_ i c' = []) by (eapply IH; [|eapply keeps_uncallable; eassumption|exact H2]; pose proof (grows _ _ _ _ H1); lia).
  destruct o as [[j e]|]; [|exact G]. destruct (Nat.eqb_spec j i) as [->|]; [|exact G]. exfalso.
  assert (Hx : (exists l, x = Line l) \/ forall l, x <> Line l) by (destruct x; [left; eauto|right; discriminate..]).
  destruct Hx as [(l & ->)|Hx]; [apply line_step in H1 as (_ & G' & _); discriminate|]. pose proof (pass_step _ _ _ _ H1 Hx) as (_ & (_ & _ & G' & _) & _). congruence.
Qed.
Lemma disabled_lemma xs ys i s c1 s' c2 : In (Clear i) xs -> run xs state0 = Ended s c1 -> run ys s = Ended s' c2 -> for_ i c2 = [].
Proof.
  intros Hin H1 H2. apply in_split in Hin as (a & b & ->). apply run_split in H1 as (s0 & ca & cb & Ha & Hb & _). apply run_cons in Hb as (s1 & o & cb' & Hs & Hb & _).
  assert (Hi : i < length (d_subs s0)) by (unfold Delivery_model.step in Hs; destruct (Nat.ltb_spec i (length (d_subs s0))); [assumption|discriminate]).
  assert (Hc : callable s1 i = false).
  { assert (Es : d_subs s1 = modify i (fun u => {| u_active := u_active u; u_call := false |}) (d_subs s0)).
    { unfold Delivery_model.step in Hs. destruct (i <? length (d_subs s0)); [|discriminate]. destruct (d_phase s0); try (injection Hs as <- _; reflexivity). destruct (i0 =? i); [discriminate|]. injection Hs as <- _; reflexivity. }
    unfold callable. rewrite Es, modify_same. destruct (nth_error (d_subs s0) i); reflexivity. }
  pose proof (grows _ _ _ _ Hs) as Hg.
  assert (G : for_ i (cb' ++ c2) = []) by (apply (uncallable_run (b ++ ys) s1 s'); [lia|exact Hc|rewrite run_app, Hb, H2; reflexivity]).
  unfold for_ in *. rewrite filter_app, map_app in G. apply app_eq_nil in G as [_ G]. exact G.
Qed.

(** ** No crash *)
Definition ready_ok s : Prop := forall e kept i todo, d_phase s = Ready e kept i todo -> callable s i = true.
Lemma safe_lemma xs : (forall l, parse l <> None) -> (forall a i b s c, xs = a ++ Clear i :: b -> run a state0 = Ended s c -> ~ visiting i s) -> run xs state0 <> FCrashed.
Proof.
  intros Hp. assert (K : forall xs, (forall a i b s c, xs = a ++ Clear i :: b -> run a state0 = Ended s c -> ~ visiting i s) ->
    run xs state0 <> FCrashed /\ forall s c, run xs state0 = Ended s c -> ready_ok s).
  { clear xs. induction xs as [|x xs IH] using rev_ind; intro Hv.
    - split; [discriminate|]. intros s c H. injection H as <- _. intros ? ? ? ? H. discriminate.
    - destruct IH as [IH1 IH2].
      { intros a i b s c -> H. apply (Hv a i (b ++ [x]) s c); [rewrite <- app_assoc; reflexivity|exact H]. }
      assert (S : forall s c, run xs state0 = Ended s c -> step x s <> Crashed /\ forall s' o, step x s = Next s' o -> ready_ok s').
      { intros s c H. pose proof (IH2 s c H) as Hr. assert (Hcl : forall i, x = Clear i -> ~ visiting i s) by (intros i ->; exact (Hv xs i [] s c eq_refl H)). clear IH1 IH2 Hv.
        assert (Tr : forall s', d_phase s' = d_phase s -> d_subs s' = d_subs s -> ready_ok s') by (intros s' E1 E2 ? ? ? ? G; unfold callable; rewrite E2; rewrite E1 in G; exact (Hr _ _ _ _ G)).
        unfold Delivery_model.step, go. destruct x as [l| | | | |at_|i|i|i|].
        - destruct (d_phase s) eqn:P; try (split; [discriminate|intros ? ? G; discriminate]). destruct (d_set s); [split; [discriminate|intros s' o G; injection G as <- _; exact Hr]|].
          specialize (Hp l). destruct (parse l); [|congruence]. split; [discriminate|]. intros s' o G. injection G as <- _. intros ? ? ? ? G. discriminate.
        - destruct (d_phase s) as [|e kept [|i todo]| | |] eqn:P; try (split; [discriminate|intros ? ? G; discriminate]).
          + split; [discriminate|]. intros s' o G. injection G as <- _. intros ? ? ? ? G. discriminate.
          + destruct (active s i); (split; [discriminate|]; intros s' o G; injection G as <- _; intros ? ? ? ? G; discriminate).
        - destruct (d_phase s) as [| |e kept i todo| |] eqn:P; try (split; [discriminate|intros ? ? G; discriminate]).
          destruct (callable s i) eqn:C; (split; [discriminate|]; intros s' o G; injection G as <- _; intros ? ? ? ? G); [|discriminate]. injection G as <- <- <- <-. exact C.
        - destruct (d_phase s) as [| | |e kept i todo|] eqn:P; try (split; [discriminate|intros ? ? G; discriminate]). rewrite (Hr _ _ _ _ P).
          split; [discriminate|]. intros s' o G. injection G as <- _. intros ? ? ? ? G. discriminate.
        - destruct (d_phase s) as [| | | |e kept i todo] eqn:P; try (split; [discriminate|intros ? ? G; discriminate]). split; [discriminate|]. intros s' o G. injection G as <- _. intros ? ? ? ? G. discriminate.
        - destruct (d_phase s) eqn:P; try (split; [discriminate|intros ? ? G; discriminate]). split; [discriminate|]. intros s' o G. injection G as <- _. intros ? ? ? ? G. discriminate.
        - destruct (i <? length (d_subs s)); [|split; [discriminate|intros ? ? G; discriminate]]. split; [discriminate|]. intros s' o G. injection G as <- _. intros e kept j todo G. cbn in G. specialize (Hr _ _ _ _ G).
          unfold callable in *. cbn. destruct (Nat.eq_dec i j) as [<-|Hij]; [rewrite modify_same; destruct (nth_error (d_subs s) i); [exact Hr|discriminate]|rewrite modify_other by exact Hij; exact Hr].
        - destruct (i <? length (d_subs s)); [|split; [discriminate|intros ? ? G; discriminate]]. specialize (Hcl i eq_refl).
          assert (Hj : forall e kept j todo, d_phase s = Ready e kept j todo -> i <> j) by (intros e kept j todo G ->; apply Hcl; exists e, kept, todo; auto).
          assert (Done : forall p, p = d_phase s -> ready_ok {| d_subs := modify i (fun u => {| u_active := u_active u; u_call := false |}) (d_subs s); d_set := d_set s; d_phase := p |}).
          { intros p -> e kept j todo G. cbn in G. pose proof (Hj _ _ _ _ G) as N. specialize (Hr _ _ _ _ G). unfold callable in *. cbn. rewrite modify_other by exact N. exact Hr. }
          destruct (d_phase s) as [|e kept todo|e kept j todo|e kept j todo|e kept j todo] eqn:P; try (split; [discriminate|]; intros s' o G; injection G as <- _; apply Done; reflexivity).
          destruct (Nat.eqb_spec j i) as [->|]; [exfalso; apply Hcl; exists e, kept, todo; auto|]. split; [discriminate|]. intros s' o G; injection G as <- _; apply Done; reflexivity.
        - destruct (i <? length (d_subs s)); [|split; [discriminate|intros ? ? G; discriminate]]. split; [discriminate|]. intros s' o G. injection G as <- _. exact Hr.
        - destruct (d_phase s) eqn:P; try (split; [discriminate|intros ? ? G; discriminate]). split; [discriminate|]. intros s' o G. injection G as <- _. intros ? ? ? ? G. discriminate. }
      split.
      + rewrite run_app. destruct (run xs state0) as [s c| |] eqn:R; [|congruence|discriminate]. destruct (S s c eq_refl) as [S1 _]. cbn. destruct (step x s); [discriminate|congruence|discriminate].
      + intros s c H. apply run_snoc in H as (s1 & c1 & o & H1 & H2 & _). destruct (S s1 c1 H1) as [_ S2]. exact (S2 s o H2). }
  intro Hv. exact (proj1 (K xs Hv)).
Qed.

(** ** In order *)
Lemma last_line xs : no_line xs \/ exists a l b, xs = a ++ Line l :: b /\ no_line b.
Proof.
  induction xs as [|x xs [IH|(a & l & b & -> & IH)]]; [left; intros ? []| |right; exists (x :: a), l, b; auto].
  destruct x as [l| | | | | | | | |]; [right; exists [], l, xs; auto|left; intros l [G|G]; [discriminate|exact (IH l G)]..].
Qed.
Lemma subseq_app_both {A} (a b c d : list A) : subseq a b -> subseq c d -> subseq (a ++ c) (b ++ d).
Proof. intros H K. induction H; cbn; [|constructor; assumption..]. induction l; cbn; [exact K|constructor; assumption]. Qed.
Lemma subseq_right {A} (a b c : list A) : subseq a b -> subseq a (b ++ c).
Proof. intro H. rewrite <- (app_nil_r a). apply subseq_app_both; [exact H|constructor]. Qed.
Lemma order_lemma : forall n xs s c i, length xs <= n -> run xs state0 = Ended s c -> subseq (for_ i c) (events parse xs).
Proof.
  induction n as [|n IH]; intros xs s c i Hn H; (destruct (last_line xs) as [Hl|(a & l & b & -> & Hb)];
    [pose proof (barred_run xs state0 _ _ i Hl (NoDup_nil _) (or_introl (fun F : In i [] => F)) H) as ->; constructor|]).
  - rewrite app_length in Hn. cbn in Hn. lia.
  - destruct (line_lemma _ _ _ _ _ H Hb) as (s0 & c1 & c2 & H1 & -> & K). rewrite app_length in Hn. cbn in Hn. specialize (IH a s0 c1 i ltac:(lia) H1).
    destruct (K i) as [[K1|(e & Ee & K1)] _]; unfold for_, events in *; rewrite filter_app, map_app, K1, flat_map_app; cbn [flat_map].
    + rewrite app_nil_r. apply subseq_right. exact IH.
    + rewrite Ee. cbn [app]. apply subseq_app_both; [exact IH|]. constructor. constructor.
Qed.
End Proofs.

(** ** Cases *)
Definition word (n : nat) : option nat := Some n.
(** Two subscribers, two lines; the first is disabled between them. *)
Definition story : list (label nat) :=
  [Subscribe 0; Subscribe 1; Line 7; Look; Test; Call; Return; Look; Test; Call; Return; Look; Deactivate 0; Clear 0; Line 8; Look; Look; Test; Call; Return; Look].
Example story_calls : exists s, run word story state0 = Ended s [(0, 7); (1, 7); (1, 8)] /\ idle s.
Proof. eexists. split; vm_compute; reflexivity. Qed.
Example story_live : live 1 [Subscribe 0; Subscribe 1; @Deactivate nat 0] /\ ~ live 0 [Subscribe 0; Subscribe 1; @Deactivate nat 0].
Proof.
  split.
  - exists [Subscribe 0], 1, [Deactivate 0]. split; [reflexivity|]. split; [reflexivity|]. split; [intros [G|[]]; discriminate|]. intros x [<-|[]] [G|G]; discriminate.
  - destruct (live_state word [Subscribe 0; Subscribe 1; Deactivate 0] _ _ 0 eq_refl) as [K _]. intro G. apply K in G as (_ & G & _). discriminate G.
Qed.
(** [disable] while the callback runs, or between the two tests and the call. *)
Lemma race_crash : crashes word [Subscribe 0; Line 7; Look; Test; Call; Deactivate 0; Clear 0] /\ crashes word [Subscribe 0; Line 7; Look; Test; Deactivate 0; Clear 0; Call].
Proof. split; reflexivity. Qed.
(** The subscriber let go, and is called all the same. *)
Lemma drop_called : exists s, run word [Subscribe 0; Drop 0; Line 7; Look; Test; Call; Return; Look] state0 = Ended s [(0, 7)].
Proof. eexists. reflexivity. Qed.
(** Deactivated before the call, and called all the same. *)
Lemma late_call : exists s, run word [Subscribe 0; Line 7; Look; Deactivate 0; Test; Call; Return; Look] state0 = Ended s [(0, 7)].
Proof. eexists. reflexivity. Qed.
