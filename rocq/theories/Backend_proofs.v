From Coq Require Import List Arith Bool Lia.
Import ListNotations.
From Verif Require Import OMap_model OMap_proofs Backend_model Backend_spec.

Section P.
Context {Text : Type}.
Notation blabel := (blabel Text). Notation backend := (backend Text). Notation bout := (bout Text).
Implicit Types (ls : list blabel) (b : backend) (vs : list (nat * bool)).

Lemma viewers_snoc ls l : viewers (ls ++ [l]) = vstep l (viewers ls).
Proof. unfold viewers. rewrite fold_left_app. reflexivity. Qed.
Lemma answers_from_app vs ls l : answers_from vs (ls ++ [l]) = answers_from vs ls ++ answers_of l (fold_left (fun vs l => vstep l vs) ls vs).
Proof. revert vs. induction ls as [|x ls IH]; intro vs; cbn; [apply app_nil_r|]. rewrite IH, app_assoc. reflexivity. Qed.
Lemma answers_snoc ls l : answers (ls ++ [l]) = answers ls ++ answers_of l (viewers ls).
Proof. apply answers_from_app. Qed.
Lemma tasks_snoc ls l : tasks_run (ls ++ [l]) = tasks_run ls + match l with RunTask => 1 | _ => 0 end.
Proof. unfold tasks_run. rewrite filter_app, app_length. f_equal. destruct l; reflexivity. Qed.
Lemma legal_snoc ls (l : blabel) : legal_run (ls ++ [l]) <-> legal_run ls /\ legal l (viewers ls).
Proof.
  unfold legal_run. split.
  - intro H. split.
    + intros a x b ->. apply (H a x (b ++ [l])). rewrite <- app_assoc. reflexivity.
    + apply (H ls l []). reflexivity.
  - intros [H1 H2] a x b Eq. destruct b as [|y b _] using rev_ind.
    + apply app_inj_tail in Eq as [-> ->]. exact H2.
    + rewrite app_comm_cons, app_assoc in Eq. apply app_inj_tail in Eq as [-> ->]. eapply H1. reflexivity.
Qed.
Lemma settled_prefix ls l : settled (ls ++ [l]) -> settled ls.
Proof. intros H a ws b v t n ->. apply (H a ws (b ++ [l])). rewrite <- app_assoc. reflexivity. Qed.
Lemma brun_snoc ls l b : brun (ls ++ [l]) b = match brun ls b with
  | Some (b', os) => match bstep l b' with Some (b'', o) => Some (b'', os ++ [o]) | None => None end | None => None end.
Proof.
  revert b. induction ls as [|x ls IH]; intro b; cbn.
  - destruct (bstep l b) as [[b' o]|]; reflexivity.
  - destruct (bstep x b) as [[b' o]|]; [|reflexivity]. rewrite IH. destruct (brun ls b') as [[b'' os]|]; [|reflexivity].
    destruct (bstep l b'') as [[b3 o3]|]; reflexivity.
Qed.

(** Viewers *)
Lemma nth_close vs ws v : nth_error (map (close ws) vs) v = option_map (close ws) (nth_error vs v).
Proof. revert v. induction vs as [|x vs IH]; intros [|v]; cbn; auto. Qed.
Lemma connected_close vs ws v a : connected (map (close ws) vs) v a <-> connected vs v a /\ a <> ws.
Proof.
  unfold connected. rewrite nth_close. destruct (nth_error vs v) as [[a' c]|]; cbn; [|split; [discriminate|intros [H _]; discriminate]].
  unfold close. cbn [fst]. destruct (Nat.eqb_spec a' ws) as [->|Hne].
  - split; [discriminate|]. intros [H Hn]. congruence.
  - split; [intro H; split; [exact H|congruence]|tauto].
Qed.
Lemma connected_snoc vs ws v a : connected (vs ++ [(ws, true)]) v a <-> connected vs v a \/ (v = length vs /\ a = ws).
Proof.
  unfold connected. destruct (Nat.lt_ge_cases v (length vs)) as [H|H].
  - rewrite nth_error_app1 by exact H. split; [auto|]. intros [G|[-> _]]; [exact G|lia].
  - rewrite nth_error_app2 by exact H. assert (N : nth_error vs v = None) by (apply nth_error_None; exact H). rewrite N.
    destruct (v - length vs) as [|k] eqn:E; cbn.
    + split; [intro G; injection G as <-; right; split; [lia|reflexivity]|]. intros [G|[_ ->]]; [discriminate|reflexivity].
    + destruct k; (split; [discriminate|intros [G|[-> _]]; [discriminate|lia]]).
Qed.
Definition one_each vs : Prop := forall v v' ws, connected vs v ws -> connected vs v' ws -> v = v'.
Lemma one_each_legal ls : legal_run ls -> one_each (viewers ls).
Proof.
  induction ls as [|l ls IH] using rev_ind; intro H; [intros v v' ws Hv; destruct v; discriminate|].
  apply legal_snoc in H as [H Hl]. specialize (IH H). rewrite viewers_snoc. destruct l; cbn [vstep]; try exact IH.
  - intros v v' a. rewrite !connected_snoc. cbn in Hl. intros [G1|[-> ->]] [G2|[-> E]]; auto.
    + eapply IH; eassumption.
    + subst a. exfalso. eapply Hl. exact G1.
    + exfalso. eapply Hl. exact G2.
  - intros v v' a. rewrite !connected_close. intros [G1 _] [G2 _]. eapply IH; eassumption.
Qed.
Definition address vs (v : nat) : nat := match nth_error vs v with Some (a, _) => a | None => 0 end.

(** The state after a history. *)
Definition sessions_ok (m : list (nat * session)) vs : Prop := ordered Nat.ltb m /\
  forall ws s, mfind Nat.ltb ws m = Some s <-> (s_ws s = ws /\ connected vs (s_id s) ws).
Definition task_for vs (task : nat * Text) (ans : nat * Text) : Prop := snd task = snd ans /\ exists c, nth_error vs (fst ans) = Some (fst task, c).
Definition inv ls b : Prop :=
  sessions_ok (b_sessions b) (viewers ls) /\ b_made b = length (viewers ls)
  /\ tasks_run ls <= length (answers ls) /\ Forall2 (task_for (viewers ls)) (b_tasks b) (skipn (tasks_run ls) (answers ls)).

Lemma Forall2_skipn1 {A B} (R : A -> B -> Prop) x l n (m : list B) : Forall2 R (x :: l) (skipn n m) ->
  exists y, nth_error m n = Some y /\ R x y /\ Forall2 R l (skipn (S n) m) /\ S n <= length m.
Proof.
  revert m. induction n as [|n IH]; intros m H.
  - destruct m as [|y m]; [inversion H|]. inversion H; subst. exists y. repeat split; auto. cbn. lia.
  - destruct m as [|y m]; [inversion H|]. cbn in H. destruct (IH m H) as (z & G1 & G2 & G3 & G4). exists z. cbn. repeat split; auto. lia.
Qed.
Lemma skipn_snoc {A} n (m l : list A) : n <= length m -> skipn n (m ++ l) = skipn n m ++ l.
Proof. intro H. rewrite skipn_app. replace (n - length m) with 0 by lia. reflexivity. Qed.
Lemma task_for_mono vs (l : blabel) task ans : task_for vs task ans -> task_for (vstep l vs) task ans.
Proof.
  intros [H1 (c & H2)]. split; [exact H1|]. destruct l; cbn [vstep]; eauto.
  - exists c. rewrite nth_error_app1; [exact H2|]. apply nth_error_Some. congruence.
  - rewrite nth_close, H2. cbn. unfold close. cbn [fst]. destruct (fst task =? ws); eauto.
Qed.
Lemma tasks_mono vs (l : blabel) ts as_ : Forall2 (task_for vs) ts as_ -> Forall2 (task_for (vstep l vs)) ts as_.
Proof. intro H. induction H; constructor; auto. apply task_for_mono. assumption. Qed.

(** The answers of the only session at an address. *)
Lemma late_answers vs ws v (late : list Text) : one_each vs -> connected vs v ws ->
  answers_of (Disconnect ws late) vs = map (fun t => (v, t)) late.
Proof.
  intros Hone Hv. cbn [answers_of].
  assert (G : forall k l, (forall i, nth_error l i = nth_error vs (k + i)) ->
    flat_map (fun iv : nat * (nat * bool) => match iv with (i, (a, c)) => if (a =? ws) && c then map (fun t : Text => (i, t)) late else [] end) (combine (seq k (length l)) l)
    = if (k <=? v) && (v <? k + length l) then map (fun t => (v, t)) late else []).
  { intros k l. revert k. induction l as [|[a c] l IH]; intros k Hl.
    - cbn [length seq combine flat_map]. rewrite Nat.add_0_r. destruct (Nat.leb_spec k v); cbn [andb]; [|reflexivity]. destruct (Nat.ltb_spec v k); [lia|reflexivity].
    - cbn [length seq combine flat_map]. rewrite (IH (S k)).
      2:{ intro i. rewrite Nat.add_succ_comm. apply (Hl (S i)). }
      pose proof (Hl 0) as H0. cbn in H0. rewrite Nat.add_0_r in H0. symmetry in H0.
      destruct (Nat.eqb_spec a ws) as [->|Hne]; destruct c; cbn [andb].
      + assert (k = v) by (eapply Hone; [exact H0|exact Hv]). subst k.
        replace (S v <=? v) with false by (symmetry; apply Nat.leb_gt; lia). cbn [andb]. rewrite app_nil_r, Nat.leb_refl.
        replace (v <? v + S (length l)) with true by (symmetry; apply Nat.ltb_lt; lia). reflexivity.
      + assert (k <> v) by (intros ->; unfold connected in Hv; congruence). cbn [app].
        replace (S k <=? v) with (k <=? v) by (destruct (Nat.leb_spec k v), (Nat.leb_spec (S k) v); auto; lia).
        replace (S k + length l) with (k + S (length l)) by lia. reflexivity.
      + assert (k <> v) by (intros ->; unfold connected in Hv; congruence). cbn [app].
        replace (S k <=? v) with (k <=? v) by (destruct (Nat.leb_spec k v), (Nat.leb_spec (S k) v); auto; lia).
        replace (S k + length l) with (k + S (length l)) by lia. reflexivity.
      + assert (k <> v) by (intros ->; unfold connected in Hv; congruence). cbn [app].
        replace (S k <=? v) with (k <=? v) by (destruct (Nat.leb_spec k v), (Nat.leb_spec (S k) v); auto; lia).
        replace (S k + length l) with (k + S (length l)) by lia. reflexivity. }
  rewrite (G 0 vs ltac:(reflexivity)). cbn [plus Nat.leb andb].
  replace (v <? length vs) with true; [reflexivity|]. symmetry. apply Nat.ltb_lt. apply nth_error_Some. unfold connected in Hv. congruence.
Qed.

Lemma with_id_some sid m s : with_id sid m = Some s -> exists k, In (k, s) m /\ s_id s = sid.
Proof.
  unfold with_id. destruct (find _ m) as [[k s']|] eqn:E; [|discriminate]. cbn. intro H. injection H as <-.
  apply find_some in E as [Hin Hs]. apply Nat.eqb_eq in Hs. eauto.
Qed.
Lemma with_id_found sid m k s : In (k, s) m -> s_id s = sid -> exists s', with_id sid m = Some s'.
Proof.
  intros Hin Hs. unfold with_id. destruct (find (fun kv => s_id (snd kv) =? sid) m) as [[k' s']|] eqn:E; [cbn; eauto|].
  apply find_none with (x := (k, s)) in E; [|exact Hin]. cbn in E. apply Nat.eqb_neq in E. congruence.
Qed.

Lemma inv_lemma ls : legal_run ls -> forall b os, brun ls backend0 = Some (b, os) -> inv ls b.
Proof.
  induction ls as [|l ls IH] using rev_ind; intros Hleg b os H.
  - cbn in H. injection H as <- <-. split; [|split; [reflexivity|split; [reflexivity|constructor]]]. split; [apply ordered_nil|].
    intros ws s. split; [discriminate|]. intros [_ G]. unfold connected in G. destruct (s_id s); discriminate.
  - apply legal_snoc in Hleg as [Hleg Hl]. rewrite brun_snoc in H. destruct (brun ls backend0) as [[b0 os0]|] eqn:E; [|discriminate].
    destruct (IH Hleg b0 os0 eq_refl) as ((Hord & Hs) & Hm & Htl & Ht). pose proof (one_each_legal ls Hleg) as Hone.
    destruct (bstep l b0) as [[b1 o]|] eqn:Es; [|discriminate]. injection H as <- <-.
    unfold inv. rewrite viewers_snoc, answers_snoc, tasks_snoc. destruct l as [ws|ws t|sid t| |ws late]; cbn [bstep vstep legal] in *.
    + injection Es as <- _. unfold make_session.
      assert (N : mfind Nat.ltb ws (b_sessions b0) = None).
      { destruct (mfind Nat.ltb ws (b_sessions b0)) as [s|] eqn:Ef; [|reflexivity]. apply Hs in Ef as [_ G]. exfalso. eapply Hl. exact G. }
      rewrite N. cbn [b_sessions b_made b_tasks answers_of]. rewrite app_nil_r, Nat.add_0_r. split; [split|split; [|split]].
      * apply ordered_insert; [exact nat_order|exact Hord].
      * intros k s. destruct (Nat.eq_dec k ws) as [->|Hne].
        -- rewrite find_insert_same by exact nat_order. split.
           ++ intro G. injection G as <-. cbn. split; [reflexivity|]. apply connected_snoc. right. split; [exact Hm|reflexivity].
           ++ intros [G1 G2]. apply connected_snoc in G2 as [G2|[G2 _]]; [exfalso; eapply Hl; exact G2|]. destruct s as [i w]. cbn in *. subst. rewrite Hm. reflexivity.
        -- rewrite (find_insert_other _ nat_order) by assumption. rewrite Hs, connected_snoc. split; [tauto|]. intros [G1 [G2|[_ G2]]]; [auto|congruence].
      * rewrite app_length, Hm. cbn. lia.
      * exact Htl.
      * apply (tasks_mono _ (Connect ws)). exact Ht.
    + assert (Eb : b1 = b0) by (destruct (mfind Nat.ltb ws (b_sessions b0)); congruence). subst b1. cbn [answers_of]. rewrite app_nil_r, Nat.add_0_r.
      split; [split; assumption|]. split; [exact Hm|]. split; [exact Htl|exact Ht].
    + destruct (with_id sid (b_sessions b0)) as [s|] eqn:Ew; [|discriminate]. injection Es as <- _. cbn [b_sessions b_made b_tasks answers_of].
      rewrite Nat.add_0_r. split; [split; assumption|]. split; [exact Hm|]. split; [rewrite app_length; lia|].
      rewrite skipn_snoc by exact Htl. apply Forall2_app; [exact Ht|]. constructor; [|constructor]. split; [reflexivity|]. cbn [fst].
      apply with_id_some in Ew as (k & Hin & <-). apply (in_find _ nat_order) in Hin; [|exact Hord]. apply Hs in Hin as [<- G]. eauto.
    + destruct (b_tasks b0) as [|[ws t] rest] eqn:Et; [discriminate|].
      assert (Eb : b1 = {| b_sessions := b_sessions b0; b_made := b_made b0; b_tasks := rest |}) by (destruct (mfind Nat.ltb ws (b_sessions b0)); congruence).
      subst b1. cbn [b_sessions b_made b_tasks answers_of]. rewrite app_nil_r. apply Forall2_skipn1 in Ht as (y & _ & _ & Ht & Hlen).
      rewrite Nat.add_1_r. split; [split; assumption|]. split; [exact Hm|]. split; [exact Hlen|exact Ht].
    + destruct Hl as (v & Hv).
      assert (Ef : mfind Nat.ltb ws (b_sessions b0) = Some {| s_id := v; s_ws := ws |}) by (apply Hs; split; [reflexivity|exact Hv]).
      rewrite Ef in Es. injection Es as <- _. cbn [b_sessions b_made b_tasks]. rewrite (late_answers _ _ _ _ Hone Hv), Nat.add_0_r.
      split; [split|split; [|split]].
      * apply ordered_erase; [exact nat_order|exact Hord].
      * intros k s. rewrite connected_close. destruct (Nat.eq_dec k ws) as [->|Hne].
        -- rewrite (find_erase_same _ nat_order) by exact Hord. split; [discriminate|]. tauto.
        -- rewrite (find_erase_other _ nat_order) by assumption. rewrite Hs. tauto.
      * rewrite map_length. exact Hm.
      * rewrite app_length. lia.
      * rewrite skipn_snoc by exact Htl. apply Forall2_app; [apply (tasks_mono _ (Disconnect ws late)); exact Ht|]. cbn [s_ws].
        clear - Hv. induction late as [|t late IH]; cbn [map]; constructor; [|exact IH]. split; [reflexivity|]. cbn [fst]. rewrite nth_close, Hv. cbn. unfold close. cbn [fst].
        rewrite Nat.eqb_refl. eauto.
Qed.

(** While settled, a pending answer of a viewer that has left finds nobody at its address. *)
Definition quiet ls : Prop := forall n v t ws, nth_error (answers ls) n = Some (v, t) -> tasks_run ls <= n ->
  nth_error (viewers ls) v = Some (ws, false) -> forall v', ~ connected (viewers ls) v' ws.
Lemma nth_close_false vs ws v a : nth_error (map (close ws) vs) v = Some (a, false) -> (a = ws /\ exists c, nth_error vs v = Some (ws, c)) \/ (a <> ws /\ nth_error vs v = Some (a, false)).
Proof.
  rewrite nth_close. destruct (nth_error vs v) as [[a' c]|]; cbn; [|discriminate]. unfold close. cbn [fst].
  destruct (Nat.eqb_spec a' ws) as [->|Hne]; intro H; injection H as <-; [left; eauto|]. right. subst. auto.
Qed.
Lemma quiet_lemma ls : legal_run ls -> settled ls -> forall b os, brun ls backend0 = Some (b, os) -> quiet ls.
Proof.
  induction ls as [|l ls IH] using rev_ind; intros Hleg Hset b os H.
  - intros n v t ws G. destruct n; discriminate.
  - pose proof (settled_prefix _ _ Hset) as Hset0. apply legal_snoc in Hleg as [Hleg Hl]. rewrite brun_snoc in H. destruct (brun ls backend0) as [[b0 os0]|] eqn:E; [|discriminate].
    specialize (IH Hleg Hset0 b0 os0 eq_refl). destruct (inv_lemma ls Hleg b0 os0 E) as (_ & Hm & Htl & Ht). pose proof (one_each_legal ls Hleg) as Hone.
    unfold quiet. rewrite viewers_snoc, answers_snoc, tasks_snoc. destruct l as [ws|ws t|sid t| |ws late]; cbn [vstep legal answers_of] in *.
    + rewrite app_nil_r, Nat.add_0_r. intros n v t a Hn Hle Hv v' Hc.
      assert (Hlt : v < length (viewers ls)).
      { destruct (Nat.lt_ge_cases v (length (viewers ls))) as [G|G]; [exact G|]. rewrite nth_error_app2 in Hv by exact G.
        destruct (v - length (viewers ls)) as [|k]; cbn in Hv; [injection Hv; discriminate|destruct k; discriminate]. }
      rewrite nth_error_app1 in Hv by exact Hlt. apply connected_snoc in Hc as [Hc|[-> ->]].
      * eapply IH; eassumption.
      * eapply (Hset ls ws [] v t n); [reflexivity|exact Hn|exact Hle|exact Hv].
    + rewrite app_nil_r, Nat.add_0_r. exact IH.
    + rewrite Nat.add_0_r. intros n v t0 a Hn Hle Hv v' Hc. destruct (Nat.lt_ge_cases n (length (answers ls))) as [G|G].
      * rewrite nth_error_app1 in Hn by exact G. eapply IH; eassumption.
      * rewrite nth_error_app2 in Hn by exact G. destruct (n - length (answers ls)) as [|k]; cbn in Hn; [|destruct k; discriminate].
        injection Hn as -> ->. destruct Hl as (w & Hl). unfold connected in Hl. congruence.
    + rewrite app_nil_r. intros n v t0 a Hn Hle Hv. eapply IH; [exact Hn|lia|exact Hv].
    + rewrite Nat.add_0_r. destruct Hl as (u & Hu). fold (answers_of (Disconnect ws late) (viewers ls)). rewrite (late_answers _ _ _ _ Hone Hu).
      intros n v t0 a Hn Hle Hv v' Hc. apply connected_close in Hc as [Hc Hne].
      apply nth_close_false in Hv as [[-> _]|[_ Hv]]; [congruence|]. destruct (Nat.lt_ge_cases n (length (answers ls))) as [G|G].
      * rewrite nth_error_app1 in Hn by exact G. eapply IH; eassumption.
      * rewrite nth_error_app2 in Hn by exact G. apply nth_error_In in Hn. apply in_map_iff in Hn as (t1 & Eq & _). injection Eq as -> ->.
        unfold connected in Hu. congruence.
Qed.

(** ** The lemmas *)
Lemma sessions_lemma ls b os : legal_run ls -> brun ls backend0 = Some (b, os) ->
  b_made b = length (viewers ls)
  /\ NoDup (map fst (b_sessions b))
  /\ forall ws s, In (ws, s) (b_sessions b) <-> (s_ws s = ws /\ connected (viewers ls) (s_id s) ws).
Proof.
  intros Hl H. destruct (inv_lemma ls Hl b os H) as ((Ho & Hs) & Hm & _). split; [exact Hm|]. split; [apply (ordered_NoDup _ nat_order); exact Ho|].
  intros ws s. rewrite <- Hs. split; [apply (in_find _ nat_order); exact Ho|apply (find_in _ nat_order)].
Qed.
Lemma data_lemma ls b os v ws t : legal_run ls -> brun ls backend0 = Some (b, os) -> connected (viewers ls) v ws ->
  bstep (Data ws t) b = Some (b, [Incoming v t]).
Proof.
  intros Hl H Hv. destruct (inv_lemma ls Hl b os H) as ((Ho & Hs) & _). cbn.
  assert (Ef : mfind Nat.ltb ws (b_sessions b) = Some {| s_id := v; s_ws := ws |}) by (apply Hs; split; [reflexivity|exact Hv]). rewrite Ef. reflexivity.
Qed.
Lemma answer_lemma ls b os b' o : legal_run ls -> settled ls -> brun ls backend0 = Some (b, os) -> bstep RunTask b = Some (b', o) ->
  exists v t ws c, nth_error (answers ls) (tasks_run ls) = Some (v, t) /\ nth_error (viewers ls) v = Some (ws, c) /\ o = if c then [Send ws t] else [].
Proof.
  intros Hl Hset H Hb. destruct (inv_lemma ls Hl b os H) as ((Ho & Hs) & _ & Htl & Ht). pose proof (quiet_lemma ls Hl Hset b os H) as Hq.
  cbn in Hb. destruct (b_tasks b) as [|[ws t] rest] eqn:Et; [discriminate|].
  apply Forall2_skipn1 in Ht as ([v t'] & Hn & [Heq (c & Hc)] & _). cbn [fst snd] in *. subst t'. exists v, t, ws, c. split; [exact Hn|]. split; [exact Hc|].
  destruct c.
  - assert (Ef : mfind Nat.ltb ws (b_sessions b) = Some {| s_id := v; s_ws := ws |}) by (apply Hs; split; [reflexivity|exact Hc]).
    rewrite Ef in Hb. congruence.
  - destruct (mfind Nat.ltb ws (b_sessions b)) as [s|] eqn:Ef; [|congruence]. apply Hs in Ef as [_ G]. exfalso. eapply Hq; [exact Hn|reflexivity|exact Hc|exact G].
Qed.
(** Whatever the server does, text is only sent to an address that is connected. *)
Lemma send_lemma ls b os b' o ws t : legal_run ls -> brun ls backend0 = Some (b, os) -> bstep RunTask b = Some (b', o) -> In (Send ws t) o ->
  exists v, connected (viewers ls) v ws.
Proof.
  intros Hl H Hb Hin. destruct (inv_lemma ls Hl b os H) as ((Ho & Hs) & _). cbn in Hb. destruct (b_tasks b) as [|[w u] rest]; [discriminate|].
  destruct (mfind Nat.ltb w (b_sessions b)) as [s|] eqn:Ef; injection Hb as <- <-; [|destruct Hin]. destruct Hin as [Hin|[]]. injection Hin as -> ->.
  apply Hs in Ef as [_ G]. eauto.
Qed.
(** An answer given is always taken. *)
Lemma answer_taken ls b os v ws t : legal_run ls -> brun ls backend0 = Some (b, os) -> connected (viewers ls) v ws ->
  exists b', bstep (Answer v t) b = Some (b', []) /\ b_tasks b' = b_tasks b ++ [(ws, t)].
Proof.
  intros Hl H Hv. destruct (inv_lemma ls Hl b os H) as ((Ho & Hs) & _).
  assert (Ef : mfind Nat.ltb ws (b_sessions b) = Some {| s_id := v; s_ws := ws |}) by (apply Hs; split; [reflexivity|exact Hv]).
  apply (find_in _ nat_order) in Ef. destruct (with_id_found v _ _ _ Ef eq_refl) as (s' & Ew). cbn. rewrite Ew. eexists. split; [reflexivity|].
  apply with_id_some in Ew as (k & Hin & Hk). apply (in_find _ nat_order) in Hin; [|exact Ho]. apply Hs in Hin as [Hw Hc]. rewrite Hk in Hc.
  assert (k = ws) by (unfold connected in *; congruence). cbn. congruence.
Qed.
Lemma run_outputs ls b os : legal_run ls -> brun ls backend0 = Some (b, os) -> forall l, l <> RunTask -> forall b' o ws t,
  bstep l b = Some (b', o) -> ~ In (Send ws t) o.
Proof.
  intros _ _ l Hl b' o ws t H. destruct l; cbn in H; try congruence.
  - injection H as _ <-. auto.
  - destruct (mfind _ _ _); injection H as _ <-; intros [G|[]]; discriminate.
  - destruct (with_id _ _); [|discriminate]. injection H as _ <-. auto.
  - destruct (mfind _ _ _); injection H as _ <-; auto.
Qed.
End P.
