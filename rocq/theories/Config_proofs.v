(** Proofs about the tracepoints and their configuration. *)
From Coq Require Import List Arith NArith ZArith Bool Lia Sorted.
Import ListNotations.
From Verif Require Import UnixSystem_model UnixSystem_proofs OMap_model OMap_proofs TraceEvent_model Config_model Config_spec.

Arguments mfind : simpl never.
Arguments minsert : simpl never.
Arguments merase : simpl never.

Lemma set_nth_twice {A} (x y : A) : forall l n, set_nth n y (set_nth n x l) = set_nth n y l.
Proof. induction l as [|z l IH]; destruct n; cbn; auto. now rewrite IH. Qed.
Lemma set_nth_self {A} (x : A) : forall l n, nth_error l n = Some x -> set_nth n x l = l.
Proof. induction l as [|z l IH]; destruct n; cbn; intros H; auto; [congruence|]. now rewrite IH. Qed.
Lemma nth_set_nth_same {A} (d x : A) : forall l n, n < length l -> nth n (set_nth n x l) d = x.
Proof. induction l as [|z l IH]; destruct n; cbn; intros H; try lia; auto. apply IH. lia. Qed.
Lemma nth_set_nth_other {A} (d x : A) : forall l n k, k <> n -> nth k (set_nth n x l) d = nth k l d.
Proof. induction l as [|z l IH]; destruct n, k; cbn; intros H; auto; try lia. Qed.

(** ** The relation between the model and the abstract machine *)
Definition trel (flags : list bool) (m : list (nat * nat)) (t : thr) (x : athr) : Prop :=
  seen_thread t = aseen_thread x /\
  (a_live x = true ->
   t_cleanup t = a_known x /\
   if a_known x
   then exists k, mfind Nat.ltb (a_tid x) m = Some k /\ k < length flags /\ nth k flags true = a_on x /\ (forall e, In e (t_cache t) -> snd e = k)
   else mfind Nat.ltb (a_tid x) m = None /\ a_on x = true /\ t_cache t = []).

Record rel (s : cfg) (a : acfg) : Prop := {
  r_process : g_process s = a_process a;
  r_ordered : ordered Nat.ltb (g_map s);
  r_length : length (g_threads s) = length (a_threads a);
  r_threads : forall i t x, nth_error (g_threads s) i = Some t -> nth_error (a_threads a) i = Some x -> trel (g_flags s) (g_map s) t x;
  r_inj : forall p q k, mfind Nat.ltb p (g_map s) = Some k -> mfind Nat.ltb q (g_map s) = Some k -> p = q;
  r_bound : forall p k, mfind Nat.ltb p (g_map s) = Some k -> k < length (g_flags s);
  r_keys : forall p k, mfind Nat.ltb p (g_map s) = Some k -> exists i x, nth_error (a_threads a) i = Some x /\ a_live x = true /\ a_known x = true /\ a_tid x = p;
  r_ids : forall i j x y, nth_error (a_threads a) i = Some x -> nth_error (a_threads a) j = Some y -> a_live x = true -> a_live y = true -> a_tid x = a_tid y -> i = j;
}.

Lemma rel0 : rel cfg0 acfg0.
Proof.
  constructor; cbn; auto.
  - apply ordered_nil.
  - intros [|]; discriminate.
  - unfold mfind. discriminate.
  - unfold mfind. discriminate.
  - unfold mfind. discriminate.
  - intros [|]; discriminate.
Qed.

Lemma rel_nth s a i t : rel s a -> nth_error (g_threads s) i = Some t -> exists x, nth_error (a_threads a) i = Some x /\ trel (g_flags s) (g_map s) t x.
Proof.
  intros R H. assert (Hi : i < length (g_threads s)) by (apply nth_error_Some; congruence).
  rewrite (r_length _ _ R) in Hi. destruct (nth_error (a_threads a) i) as [x|] eqn:E; [|apply nth_error_None in E; lia].
  exists x. split; auto. eapply r_threads; eauto.
Qed.
Lemma rel_nth_a s a i x : rel s a -> nth_error (a_threads a) i = Some x -> exists t, nth_error (g_threads s) i = Some t /\ trel (g_flags s) (g_map s) t x.
Proof.
  intros R H. assert (Hi : i < length (a_threads a)) by (apply nth_error_Some; congruence).
  rewrite <- (r_length _ _ R) in Hi. destruct (nth_error (g_threads s) i) as [t|] eqn:E; [|apply nth_error_None in E; lia].
  exists t. split; auto. eapply r_threads; eauto.
Qed.

Lemma trel_seen fl m t x : trel fl m t x -> t_tid t = a_tid x /\ t_live t = a_live x /\ t_scopes t = a_scopes x /\ t_events t = a_events x.
Proof. intros (H & _). unfold seen_thread, aseen_thread in H. inversion H. auto. Qed.

Definition known_of (x : athr) : athr := {| a_tid := a_tid x; a_live := a_live x; a_known := true; a_on := a_on x; a_scopes := a_scopes x; a_events := a_events x |}.
Definition on_of (b : bool) (x : athr) : athr := {| a_tid := a_tid x; a_live := a_live x; a_known := a_known x; a_on := b; a_scopes := a_scopes x; a_events := a_events x |}.

(** Changing thread [i] on both sides when the map, the flags, its id and its being alive and known do not change. *)
Lemma rel_thread s a i t x t' x' :
  rel s a -> nth_error (g_threads s) i = Some t -> nth_error (a_threads a) i = Some x ->
  trel (g_flags s) (g_map s) t' x' -> a_tid x' = a_tid x -> a_live x' = a_live x -> a_known x' = a_known x ->
  rel (with_thr i t' s) (a_set i x' a).
Proof.
  intros R Ht Hx HT Hid Hl Hk. assert (Hi : i < length (g_threads s)) by (apply nth_error_Some; congruence).
  assert (Hi' : i < length (a_threads a)) by (rewrite <- (r_length _ _ R); auto).
  destruct R as [R1 R2 R3 R4 R5 R6 R7 R8]. constructor; cbn; auto.
  - now rewrite !set_nth_length.
  - intros j u y Hu Hy. apply (set_nth_case _ _ _ _ _ Hi) in Hu. apply (set_nth_case _ _ _ _ _ Hi') in Hy.
    destruct Hu as [(-> & ->)|(Hu1 & Hu2)]; destruct Hy as [(? & ->)|(Hy1 & Hy2)]; try congruence; eauto.
  - intros p k Hp. destruct (R7 _ _ Hp) as (j & y & H1 & H2 & H3 & H4). destruct (Nat.eq_dec j i) as [->|Hn].
    + rewrite Hx in H1. injection H1 as <-. exists i, x'. rewrite set_nth_same by auto. repeat split; congruence.
    + exists j, y. rewrite set_nth_other by auto. auto.
  - intros j1 j2 x1 x2 H1 H2 L1 L2 E. apply (set_nth_case _ _ _ _ _ Hi') in H1. apply (set_nth_case _ _ _ _ _ Hi') in H2.
    destruct H1 as [(-> & ->)|(Hn1 & H1)]; destruct H2 as [(-> & ->)|(Hn2 & H2)]; auto.
    + apply (R8 i j2 x x2); auto; congruence.
    + apply (R8 j1 i x1 x); auto; congruence.
    + eapply R8; eauto.
Qed.

(** [getThreadStatePtr]. *)
Lemma rel_ptr s a i t x k s1 :
  rel s a -> nth_error (g_threads s) i = Some t -> nth_error (a_threads a) i = Some x -> a_live x = true ->
  thread_state_ptr i t s = (k, s1) ->
  rel s1 (a_set i (known_of x) a) /\ mfind Nat.ltb (a_tid x) (g_map s1) = Some k /\ flag k s1 = a_on x /\ g_process s1 = g_process s /\
  nth_error (g_threads s1) i = Some {| t_tid := t_tid t; t_live := t_live t; t_cleanup := true; t_cache := t_cache t; t_scopes := t_scopes t; t_events := t_events t |} /\
  (a_known x = false -> t_cache t = []).
Proof.
  intros R Ht Hx Hl HP. assert (Hi : i < length (g_threads s)) by (apply nth_error_Some; congruence).
  assert (Hi' : i < length (a_threads a)) by (rewrite <- (r_length _ _ R); auto).
  pose proof (r_threads _ _ R _ _ _ Ht Hx) as HT. destruct (trel_seen _ _ _ _ HT) as (T1 & T2 & T3 & T4). destruct HT as (_ & HT). destruct (HT Hl) as (HC & HK).
  unfold thread_state_ptr in HP. destruct (a_known x) eqn:EK.
  - destruct HK as (k0 & K1 & K2 & K3 & K4). rewrite T1, K1 in HP. injection HP as <- <-. split; [|split; [|split; [|split; [|split]]]]; cbn; auto.
    + eapply rel_thread; eauto. split.
      * unfold seen_thread, aseen_thread, known_of. cbn. rewrite ?T1, ?T2, ?T3, ?T4; reflexivity.
      * intros _. cbn. split; auto. exists k0. auto.
    + rewrite set_nth_same by auto. rewrite ?T1; reflexivity.
    + discriminate.
  - destruct HK as (K1 & K2 & K3). rewrite T1, K1 in HP. injection HP as <- <-. split; [|split; [|split; [|split; [|split]]]]; cbn; auto.
    2: { apply find_insert_same. apply nat_order. }
    2: { unfold flag. cbn. rewrite app_nth2 by lia. rewrite Nat.sub_diag. cbn. congruence. }
    2: { rewrite set_nth_same by auto. rewrite ?T1; reflexivity. }
    destruct R as [R1 R2 R3 R4 R5 R6 R7 R8]. constructor; cbn; auto.
    + apply ordered_insert; auto using nat_order.
    + now rewrite !set_nth_length.
    + intros j u y Hu Hy. apply (set_nth_case _ _ _ _ _ Hi) in Hu. apply (set_nth_case _ _ _ _ _ Hi') in Hy.
      destruct Hu as [(-> & ->)|(Hu1 & Hu2)]; destruct Hy as [(? & ->)|(Hy1 & Hy2)]; try congruence.
      * split.
        -- unfold seen_thread, aseen_thread, known_of. cbn. rewrite ?T1, ?T2, ?T3, ?T4; reflexivity.
        -- intros _. cbn. split; auto. exists (length (g_flags s)). repeat split.
           ++ apply find_insert_same, nat_order.
           ++ rewrite app_length. cbn. lia.
           ++ rewrite app_nth2 by lia. rewrite Nat.sub_diag. cbn. congruence.
           ++ rewrite K3. contradiction.
      * destruct (R4 _ _ _ Hu2 Hy2) as (A1 & A2). split; auto. intros Hly. destruct (A2 Hly) as (A3 & A4). split; auto.
        assert (Hne : a_tid y <> a_tid x) by (intros E; apply Hy1; eapply R8; eauto).
        rewrite (find_insert_other _ nat_order) by auto. destruct (a_known y); auto.
        destruct A4 as (k1 & B1 & B2 & B3 & B4). exists k1. rewrite app_length, app_nth1 by lia. repeat split; auto. lia.
    + intros p q k Hp Hq. destruct (Nat.eq_dec p (a_tid x)) as [->|Hp']; destruct (Nat.eq_dec q (a_tid x)) as [->|Hq']; auto.
      * rewrite (find_insert_same _ nat_order) in Hp. rewrite (find_insert_other _ nat_order) in Hq by auto. injection Hp as <-. apply R6 in Hq. lia.
      * rewrite (find_insert_same _ nat_order) in Hq. rewrite (find_insert_other _ nat_order) in Hp by auto. injection Hq as <-. apply R6 in Hp. lia.
      * rewrite (find_insert_other _ nat_order) in Hp, Hq by auto. eauto.
    + intros p k Hp. rewrite app_length. cbn. destruct (Nat.eq_dec p (a_tid x)) as [->|Hp'].
      * rewrite (find_insert_same _ nat_order) in Hp. injection Hp as <-. lia.
      * rewrite (find_insert_other _ nat_order) in Hp by auto. apply R6 in Hp. lia.
    + intros p k Hp. destruct (Nat.eq_dec p (a_tid x)) as [->|Hp'].
      * exists i, (known_of x). rewrite set_nth_same by auto. auto.
      * rewrite (find_insert_other _ nat_order) in Hp by auto. destruct (R7 _ _ Hp) as (j & y & H1 & H2 & H3 & H4).
        assert (j <> i) by (intros ->; congruence). exists j, y. rewrite set_nth_other by auto. auto.
    + intros j1 j2 x1 x2 H1 H2 L1 L2 E. apply (set_nth_case _ _ _ _ _ Hi') in H1. apply (set_nth_case _ _ _ _ _ Hi') in H2.
      destruct H1 as [(-> & ->)|(Hn1 & H1)]; destruct H2 as [(-> & ->)|(Hn2 & H2)]; auto.
      * apply (R8 i j2 x x2); auto.
      * apply (R8 j1 i x1 x); auto.
      * eapply R8; eauto.
Qed.

(** Storing to the flag of a live thread that is known. *)
Lemma rel_store s a i x k b :
  rel s a -> nth_error (a_threads a) i = Some x -> a_live x = true -> a_known x = true -> mfind Nat.ltb (a_tid x) (g_map s) = Some k ->
  rel (store_flag k b s) (a_set i (on_of b x) a).
Proof.
  intros R Hx Hl HK Hm. assert (Hi' : i < length (a_threads a)) by (apply nth_error_Some; congruence).
  destruct R as [R1 R2 R3 R4 R5 R6 R7 R8]. pose proof (R6 _ _ Hm) as Hb. constructor; cbn; auto.
  - now rewrite !set_nth_length.
  - intros j u y Hu Hy. apply (set_nth_case _ _ _ _ _ Hi') in Hy. destruct Hy as [(-> & ->)|(Hy1 & Hy2)].
    + destruct (R4 _ _ _ Hu Hx) as (A1 & A2). split; [exact A1|]. intros _. destruct (A2 Hl) as (A3 & A4). cbn. rewrite HK in *. split; auto.
      destruct A4 as (k' & B1 & B2 & B3 & B4). exists k'. assert (k' = k) by congruence. subst k'. rewrite set_nth_length. repeat split; auto. apply nth_set_nth_same. lia.
    + destruct (R4 _ _ _ Hu Hy2) as (A1 & A2). split; [exact A1|]. intros Hly. destruct (A2 Hly) as (A3 & A4). split; auto.
      destruct (a_known y) eqn:E; auto. destruct A4 as (k' & B1 & B2 & B3 & B4). exists k'. rewrite set_nth_length. repeat split; auto.
      rewrite nth_set_nth_other; auto. intros ->. apply Hy1. eapply (R8 j i); eauto.
  - intros p k0 Hp. rewrite set_nth_length. eauto.
  - intros p k0 Hp. destruct (R7 _ _ Hp) as (j & y & H1 & H2 & H3 & H4). destruct (Nat.eq_dec j i) as [->|Hn].
    + rewrite Hx in H1. injection H1 as <-. exists i, (on_of b x). rewrite set_nth_same by auto. auto.
    + exists j, y. rewrite set_nth_other by auto. auto.
  - intros j1 j2 x1 x2 H1 H2 L1 L2 E. apply (set_nth_case _ _ _ _ _ Hi') in H1. apply (set_nth_case _ _ _ _ _ Hi') in H2.
    destruct H1 as [(-> & ->)|(Hn1 & H1)]; destruct H2 as [(-> & ->)|(Hn2 & H2)]; auto.
    + apply (R8 i j2 x x2); auto.
    + apply (R8 j1 i x1 x); auto.
    + eapply R8; eauto.
Qed.

Lemma rel_process s a b : rel s a -> rel (store_process b s) {| a_process := b; a_threads := a_threads a |}.
Proof. intros []. constructor; cbn; auto. Qed.

Lemma rel_set s a i t x b old s1 :
  rel s a -> nth_error (g_threads s) i = Some t -> nth_error (a_threads a) i = Some x -> a_live x = true ->
  set_thread_state i t b s = (old, s1) ->
  rel s1 (a_set i (on_of b (known_of x)) a) /\ old = a_on x /\
  nth_error (g_threads s1) i = Some {| t_tid := t_tid t; t_live := t_live t; t_cleanup := true; t_cache := t_cache t; t_scopes := t_scopes t; t_events := t_events t |}.
Proof.
  intros R Ht Hx Hl H. assert (Hi' : i < length (a_threads a)) by (apply nth_error_Some; congruence).
  unfold set_thread_state in H. destruct (thread_state_ptr i t s) as [k s2] eqn:E.
  destruct (rel_ptr _ _ _ _ _ _ _ R Ht Hx Hl E) as (R' & M & F & P & T & _). injection H as <- <-.
  split; [|split; auto]. replace (a_set i (on_of b (known_of x)) a) with (a_set i (on_of b (known_of x)) (a_set i (known_of x) a)).
  - eapply rel_store; eauto. cbn. now rewrite set_nth_same by auto.
  - unfold a_set. cbn. now rewrite set_nth_twice.
Qed.

Lemma rel_scopes s a i x l :
  rel s a -> nth_error (a_threads a) i = Some x ->
  rel (upd_scopes i l s) (a_set i {| a_tid := a_tid x; a_live := a_live x; a_known := a_known x; a_on := a_on x; a_scopes := l; a_events := a_events x |} a).
Proof.
  intros R Hx. destruct (rel_nth_a _ _ _ _ R Hx) as (t & Ht & HT). unfold upd_scopes. rewrite Ht.
  destruct (trel_seen _ _ _ _ HT) as (T1 & T2 & T3 & T4). eapply rel_thread; eauto. destruct HT as (_ & HT). split; [|exact HT].
  unfold seen_thread, aseen_thread. cbn. now rewrite T1, T2, T4.
Qed.

(** ** Remote requests *)
Definition store_all (ths : list (nat * bool)) (s : cfg) : cfg :=
  fold_left (fun s kv => match mfind Nat.ltb (fst kv) (g_map s) with Some k => store_flag k (snd kv) s | None => s end) ths s.

Definition remote1 (kv : nat * bool) (x : athr) : athr :=
  if a_live x && a_known x && (fst kv =? a_tid x) then on_of (snd kv) x else x.

Lemma rel_remote1 s a kv : rel s a ->
  rel (match mfind Nat.ltb (fst kv) (g_map s) with Some k => store_flag k (snd kv) s | None => s end)
      {| a_process := a_process a; a_threads := map (remote1 kv) (a_threads a) |}.
Proof.
  intros R. destruct (mfind Nat.ltb (fst kv) (g_map s)) as [k|] eqn:E.
  - destruct (r_keys _ _ R _ _ E) as (i & x & H1 & H2 & H3 & H4). rewrite <- H4 in E.
    pose proof (rel_store _ _ _ _ _ (snd kv) R H1 H2 H3 E) as R'. enough (EQ : map (remote1 kv) (a_threads a) = set_nth i (on_of (snd kv) x) (a_threads a)) by (rewrite EQ; exact R').
    assert (U : forall j y, nth_error (a_threads a) j = Some y -> remote1 kv y = if j =? i then on_of (snd kv) x else y).
    { intros j y Hj. unfold remote1. destruct (Nat.eqb_spec j i) as [->|Hn].
      - rewrite H1 in Hj. injection Hj as <-. rewrite H2, H3, H4, Nat.eqb_refl. reflexivity.
      - destruct (a_live y && a_known y) eqn:EL; auto. destruct (Nat.eqb_spec (fst kv) (a_tid y)) as [Ee|]; auto. exfalso. apply Hn.
        apply andb_prop in EL. destruct EL as (EL & _). apply (r_ids _ _ R j i y x); auto. congruence. }
    clear -U H1. revert i H1 U. induction (a_threads a) as [|y l IH]; intros [|i] H1 U; cbn in *; try discriminate.
    + injection H1 as ->. rewrite (U 0 x eq_refl). cbn. f_equal. transitivity (map (fun z => z) l); [|apply map_id].
      apply map_ext_in. intros z Hz. apply In_nth_error in Hz. destruct Hz as (n & Hz). apply (U (S n) z Hz).
    + rewrite (U 0 y eq_refl). cbn. f_equal. apply IH; auto. intros j z Hz. apply (U (S j) z Hz).
  - enough (EQ : map (remote1 kv) (a_threads a) = a_threads a) by (rewrite EQ; destruct a; exact R).
    transitivity (map (fun z => z) (a_threads a)); [|apply map_id]. apply map_ext_in. intros y Hy. apply In_nth_error in Hy. destruct Hy as (j & Hy).
    unfold remote1. destruct (a_live y && a_known y) eqn:EL; auto. destruct (Nat.eqb_spec (fst kv) (a_tid y)) as [Ee|]; auto. exfalso.
    apply andb_prop in EL. destruct EL as (EL & EK). destruct (rel_nth_a _ _ _ _ R Hy) as (t & _ & (_ & HT)). destruct (HT EL) as (_ & HT'). rewrite EK in HT'.
    destruct HT' as (k & Hk & _). congruence.
Qed.

Lemma asked_snoc ths kv tid : asked (ths ++ [kv]) tid = if fst kv =? tid then Some (snd kv) else asked ths tid.
Proof. unfold asked. now rewrite fold_left_app. Qed.

Lemma rel_remote ths : forall s a, rel s a -> rel (store_all ths s) {| a_process := a_process a; a_threads := map (remote_thread ths) (a_threads a) |}.
Proof.
  induction ths as [|kv ths IH] using rev_ind; intros s a R.
  - enough (EQ : map (remote_thread []) (a_threads a) = a_threads a) by (rewrite EQ; destruct a; exact R).
    transitivity (map (fun z => z) (a_threads a)); [|apply map_id]. apply map_ext. intros y. unfold remote_thread. cbn. now destruct (a_live y && a_known y).
  - unfold store_all. rewrite fold_left_app. cbn [fold_left]. pose proof (rel_remote1 _ _ kv (IH _ _ R)) as H. fold (store_all ths s). cbn [a_process a_threads] in H. rewrite map_map in H.
    enough (EQ : map (remote_thread (ths ++ [kv])) (a_threads a) = map (fun x => remote1 kv (remote_thread ths x)) (a_threads a)) by (rewrite EQ; exact H).
    apply map_ext. intros y. unfold remote_thread, remote1. rewrite asked_snoc. destruct (a_live y && a_known y) eqn:EL.
    + destruct (asked ths (a_tid y)) as [b|]; cbn [a_live a_known a_tid].
      * rewrite EL. cbn [andb]. destruct (fst kv =? a_tid y); reflexivity.
      * rewrite EL. cbn [andb]. destruct (fst kv =? a_tid y); reflexivity.
    + rewrite EL. reflexivity.
Qed.

Lemma handle_rel r s a : rel s a -> exists a', astep (GRemote r) a = Some a' /\ rel (fst (c_handle r s)) a'.
Proof.
  intros R. destruct r as [|sp p ths]; cbn -[store_all].
  - eauto.
  - eexists. split; [reflexivity|]. fold (store_all ths (if sp then store_process p s else s)).
    pose proof (rel_remote ths (if sp then store_process p s else s) {| a_process := if sp then p else a_process a; a_threads := a_threads a |}) as H.
    cbn in H. apply H. destruct sp; [now apply rel_process|]. destruct a; exact R.
Qed.

(** ** Every step of the model is a step of the abstract machine, and the other way round. *)
Definition agree (o : option cfg) (o' : option acfg) : Prop :=
  match o, o' with Some s, Some a => rel s a | None, None => True | _, _ => False end.

Lemma live_of s a i : rel s a ->
  (exists t x, nth_error (g_threads s) i = Some t /\ nth_error (a_threads a) i = Some x /\ trel (g_flags s) (g_map s) t x /\ t_live t = true /\ a_live x = true) \/
  ((forall A f, @g_on_thread A i s f = None) /\
   (forall A (f : athr -> option A), match nth_error (a_threads a) i with Some t => if a_live t then f t else None | None => None end = None)).
Proof.
  intros R. destruct (nth_error (g_threads s) i) as [t|] eqn:E.
  - destruct (rel_nth _ _ _ _ R E) as (x & Hx & HT). destruct (trel_seen _ _ _ _ HT) as (_ & T2 & _). destruct (t_live t) eqn:EL.
    + left. exists t, x. split; [auto|split; [auto|split; [exact HT|split; congruence]]].
    + right. unfold g_on_thread. rewrite E, Hx, EL, <- T2. auto.
  - right. unfold g_on_thread. rewrite E. destruct (nth_error (a_threads a) i) as [x|] eqn:Ex; auto.
    destruct (rel_nth_a _ _ _ _ R Ex) as (t & Ht & _). congruence.
Qed.

Lemma on_thread_live A i s (f : thr -> option A) t : nth_error (g_threads s) i = Some t -> t_live t = true -> g_on_thread i s f = f t.
Proof. intros H H1. unfold g_on_thread. now rewrite H, H1. Qed.

Ltac ext_eq := match goal with |- rel ?s ?a => idtac end.

Lemma step_agree l s a : not_late l -> rel s a -> agree (gstep l s) (astep l a).
Proof.
  intros NL R. destruct l as [tid|i p time room|i|i b|b|i isp b|i|r|i|i b]; cbn -[thread_state_ptr set_thread_state c_handle astep].
  - (* start *)
    cbn. assert (EQ : existsb (fun t => (t_tid t =? tid) && t_live t) (g_threads s) = existsb (fun t => (a_tid t =? tid) && a_live t) (a_threads a)).
    { pose proof (r_length _ _ R) as HL. assert (H : forall i t x, nth_error (g_threads s) i = Some t -> nth_error (a_threads a) i = Some x -> t_tid t = a_tid x /\ t_live t = a_live x).
      { intros i t x H1 H2. destruct (trel_seen _ _ _ _ (r_threads _ _ R _ _ _ H1 H2)) as (? & ? & _). auto. }
      clear R. revert HL H. generalize (a_threads a). induction (g_threads s) as [|t l IH]; intros [|x l'] HL H; cbn in *; try discriminate; auto.
      destruct (H 0 t x eq_refl eq_refl) as (-> & ->). f_equal. apply IH; [lia|]. intros i t' x' H1 H2. apply (H (S i)); auto. }
    rewrite <- EQ. destruct (existsb _ (g_threads s)) eqn:EE; cbn; auto. symmetry in EQ.
    assert (Hfresh : forall i x, nth_error (a_threads a) i = Some x -> a_live x = true -> a_tid x <> tid).
    { intros i x Hx Hl E. assert (HE : existsb (fun t => (a_tid t =? tid) && a_live t) (a_threads a) = true); [|congruence].
      apply existsb_exists. exists x. split; [eapply nth_error_In; eauto|]. rewrite E, Nat.eqb_refl, Hl. reflexivity. }
    destruct R as [R1 R2 R3 R4 R5 R6 R7 R8]. constructor; cbn; auto.
    + rewrite !app_length. cbn. lia.
    + intros i t x Ht Hx. apply nth_error_snoc in Ht. apply nth_error_snoc in Hx. destruct Ht as [Ht|(-> & <-)]; destruct Hx as [Hx|(Hx & <-)]; eauto.
      * assert (i < length (g_threads s)) by (apply nth_error_Some; congruence). lia.
      * assert (length (g_threads s) < length (a_threads a)) by (apply nth_error_Some; congruence). lia.
      * split; [reflexivity|]. cbn. intros _. repeat split. destruct (mfind Nat.ltb tid (g_map s)) as [k|] eqn:Ek; auto. exfalso.
        destruct (R7 _ _ Ek) as (j & y & H1 & H2 & H3 & H4). eapply Hfresh; eauto.
    + intros p k Hp. destruct (R7 _ _ Hp) as (j & y & H1 & H2 & H3 & H4). exists j, y. rewrite nth_error_app1 by (apply nth_error_Some; congruence). auto.
    + intros i j x y Hx Hy Lx Ly E. apply nth_error_snoc in Hx. apply nth_error_snoc in Hy. destruct Hx as [Hx|(-> & <-)]; destruct Hy as [Hy|(-> & <-)]; auto.
      * eapply R8; eauto.
      * cbn in E. exfalso. eapply Hfresh; eauto.
      * cbn in E. exfalso. eapply Hfresh; eauto.
  - (* tracepoint *)
    cbn [astep]. destruct (live_of _ _ i R) as [(t & x & Ht & Hx & HT & Lt & Lx)|(N1 & N2)]; [|rewrite N1, N2; exact I].
    rewrite (on_thread_live _ _ _ _ _ Ht Lt), Hx, Lx. assert (Hi' : i < length (a_threads a)) by (apply nth_error_Some; congruence).
    destruct (trel_seen _ _ _ _ HT) as (T1 & T2 & T3 & T4).
    destruct (find (fun e => fst e =? fn_of p) (t_cache t)) as [e|] eqn:EF.
    + rewrite Ht, EF. apply find_some in EF. destruct EF as (EF & _). cbn [agree]. pose proof HT as (_ & HT').
      destruct (HT' Lx) as (HC & HK). destruct (a_known x) eqn:EK; [|destruct HK as (_ & _ & HK); rewrite HK in EF; contradiction].
      destruct HK as (k & K1 & K2 & K3 & K4). pose proof (K4 _ EF) as K5. unfold flag. rewrite K5. eapply rel_thread; eauto. split.
      * unfold seen_thread, aseen_thread. cbn. rewrite T1, T2, T3, T4, (r_process _ _ R), K3, Lx. destruct (a_process a && a_on x && room); now rewrite ?app_nil_r.
      * cbn. intros _. split; auto. exists k. auto.
    + destruct (thread_state_ptr i t s) as [k s1] eqn:EP. destruct (rel_ptr _ _ _ _ _ _ _ R Ht Hx Lx EP) as (R' & M & F & P & T & C). rewrite T. cbn [agree t_cache t_tid t_live t_cleanup t_scopes t_events]. rewrite EF.
      replace (a_set i _ a) with (a_set i {| a_tid := a_tid x; a_live := true; a_known := true; a_on := a_on x; a_scopes := a_scopes x;
         a_events := a_events x ++ (if a_process a && a_on x && room then [event_of p time] else []) |} (a_set i (known_of x) a)) by (unfold a_set; cbn; now rewrite set_nth_twice).
      assert (Hx1 : nth_error (a_threads (a_set i (known_of x) a)) i = Some (known_of x)) by (cbn; now rewrite set_nth_same).
      eapply rel_thread; eauto.
      split.
      * unfold seen_thread, aseen_thread. cbn. rewrite T1, T2, T3, T4, P, (r_process _ _ R), F, Lx. destruct (a_process a && a_on x && room); now rewrite ?app_nil_r.
      * cbn. intros _. split; auto. exists k. pose proof (r_threads _ _ R' _ _ _ T Hx1) as (_ & HT1). destruct (HT1 Lx) as (_ & HK1). cbn in HK1. destruct HK1 as (k1 & K1 & K2 & K3 & K4).
        assert (k1 = k) by congruence. subst k1. repeat split; auto. intros e' [<-|He]; auto.
  - (* get *)
    cbn [astep]. destruct (live_of _ _ i R) as [(t & x & Ht & Hx & HT & Lt & Lx)|(N1 & N2)]; [|rewrite N1, N2; exact I].
    rewrite (on_thread_live _ _ _ _ _ Ht Lt), Hx, Lx. destruct (thread_state_ptr i t s) as [k s1] eqn:EP. cbn [snd agree].
    destruct (rel_ptr _ _ _ _ _ _ _ R Ht Hx Lx EP) as (R' & _). unfold known_of in R'. rewrite Lx in R'. exact R'.
  - (* set thread *)
    cbn [astep]. destruct (live_of _ _ i R) as [(t & x & Ht & Hx & HT & Lt & Lx)|(N1 & N2)]; [|rewrite N1, N2; exact I].
    rewrite (on_thread_live _ _ _ _ _ Ht Lt), Hx, Lx. destruct (set_thread_state i t b s) as [old s1] eqn:EP. cbn [snd agree].
    destruct (rel_set _ _ _ _ _ _ _ _ R Ht Hx Lx EP) as (R' & _). unfold on_of, known_of in R'. cbn in R'. rewrite Lx in R'. exact R'.
  - (* set process *)
    cbn. apply rel_process; auto.
  - (* scope *)
    cbn [astep]. destruct (live_of _ _ i R) as [(t & x & Ht & Hx & HT & Lt & Lx)|(N1 & N2)]; [|rewrite N1, N2; exact I].
    rewrite (on_thread_live _ _ _ _ _ Ht Lt), Hx, Lx. assert (Hi' : i < length (a_threads a)) by (apply nth_error_Some; congruence).
    destruct (trel_seen _ _ _ _ HT) as (T1 & T2 & T3 & T4). destruct isp.
    + cbn [agree]. rewrite T3, (r_process _ _ R). pose proof (rel_scopes _ _ i x ((true, a_process a) :: a_scopes x) (rel_process _ _ b R) Hx) as H. rewrite Lx in H. exact H.
    + destruct (set_thread_state i t b s) as [old s1] eqn:EP. cbn [agree]. destruct (rel_set _ _ _ _ _ _ _ _ R Ht Hx Lx EP) as (R' & -> & _).
      rewrite T3. pose proof (rel_scopes _ _ i (on_of b (known_of x)) ((false, a_on x) :: a_scopes x) R') as H. cbn in H. rewrite set_nth_same in H by auto. specialize (H eq_refl).
      unfold a_set in *. cbn in *. rewrite set_nth_twice, Lx in H. exact H.
  - (* unscope *)
    cbn [astep]. destruct (live_of _ _ i R) as [(t & x & Ht & Hx & HT & Lt & Lx)|(N1 & N2)]; [|rewrite N1, N2; exact I].
    rewrite (on_thread_live _ _ _ _ _ Ht Lt), Hx, Lx. assert (Hi' : i < length (a_threads a)) by (apply nth_error_Some; congruence).
    destruct (trel_seen _ _ _ _ HT) as (T1 & T2 & T3 & T4). rewrite T3. destruct (a_scopes x) as [|[[|] prev] r] eqn:ES; cbn [agree]; auto.
    + pose proof (rel_scopes _ _ i x r (rel_process _ _ prev R) Hx) as H. rewrite Lx in H. exact H.
    + destruct (set_thread_state i t prev s) as [old s1] eqn:EP. cbn [snd]. destruct (rel_set _ _ _ _ _ _ _ _ R Ht Hx Lx EP) as (R' & -> & _).
      pose proof (rel_scopes _ _ i (on_of prev (known_of x)) r R') as H. cbn in H. rewrite set_nth_same in H by auto. specialize (H eq_refl).
      unfold a_set in *. cbn in *. rewrite set_nth_twice, Lx in H. exact H.
  - (* remote *)
    destruct (handle_rel r _ _ R) as (a' & E & R'). rewrite E. exact R'.
  - (* exit *)
    cbn [astep]. destruct (live_of _ _ i R) as [(t & x & Ht & Hx & HT & Lt & Lx)|(N1 & N2)]; [|rewrite N1, N2; exact I].
    rewrite (on_thread_live _ _ _ _ _ Ht Lt), Hx, Lx. assert (Hi' : i < length (a_threads a)) by (apply nth_error_Some; congruence).
    assert (Hi : i < length (g_threads s)) by (apply nth_error_Some; congruence). cbn [agree].
    destruct (trel_seen _ _ _ _ HT) as (T1 & T2 & T3 & T4). destruct HT as (_ & HT). destruct (HT Lx) as (HC & HK).
    set (m' := if t_cleanup t then merase Nat.ltb (t_tid t) (g_map s) else g_map s).
    assert (M1 : mfind Nat.ltb (a_tid x) m' = None).
    { unfold m'. rewrite HC. destruct (a_known x); [rewrite T1; apply find_erase_same; [apply nat_order|apply (r_ordered _ _ R)]|apply HK]. }
    assert (M2 : forall p, p <> a_tid x -> mfind Nat.ltb p m' = mfind Nat.ltb p (g_map s)).
    { intros p Hp. unfold m'. destruct (t_cleanup t); auto. rewrite T1. apply find_erase_other; auto using nat_order. apply (r_ordered _ _ R). }
    destruct R as [R1 R2 R3 R4 R5 R6 R7 R8]. constructor; cbn; fold m'; auto.
    + unfold m'. destruct (t_cleanup t); auto. apply ordered_erase; auto using nat_order.
    + now rewrite !set_nth_length.
    + intros j u y Hu Hy. apply (set_nth_case _ _ _ _ _ Hi) in Hu. apply (set_nth_case _ _ _ _ _ Hi') in Hy.
      destruct Hu as [(-> & ->)|(Hu1 & Hu2)]; destruct Hy as [(? & ->)|(Hy1 & Hy2)]; try congruence.
      * split; [unfold seen_thread, aseen_thread; cbn; now rewrite T1, T3, T4|discriminate].
      * destruct (R4 _ _ _ Hu2 Hy2) as (A1 & A2). split; auto. intros Hly. rewrite M2; auto. intros E. apply Hy1. eapply R8; eauto.
    + intros p q k Hp Hq. assert (p <> a_tid x) by congruence. assert (q <> a_tid x) by congruence. rewrite M2 in Hp, Hq by auto. eauto.
    + intros p k Hp. assert (p <> a_tid x) by congruence. rewrite M2 in Hp by auto. eauto.
    + intros p k Hp. assert (Hne : p <> a_tid x) by congruence. rewrite M2 in Hp by auto. destruct (R7 _ _ Hp) as (j & y & H1 & H2 & H3 & H4).
      assert (j <> i) by congruence. exists j, y. rewrite set_nth_other by auto. auto.
    + intros j1 j2 x1 x2 H1 H2 L1 L2 E. apply (set_nth_case _ _ _ _ _ Hi') in H1. apply (set_nth_case _ _ _ _ _ Hi') in H2.
      destruct H1 as [(-> & ->)|(Hn1 & H1)]; destruct H2 as [(-> & ->)|(Hn2 & H2)]; auto; try discriminate. eapply R8; eauto.
  - contradiction.
Qed.

Lemma run_agree : forall ls s a, Forall not_late ls -> rel s a -> agree (grun ls s) (arun ls a).
Proof.
  induction ls as [|l ls IH]; intros s a HF R; cbn [grun arun]; auto. inversion HF; subst.
  pose proof (step_agree l s a H1 R) as H. destruct (gstep l s), (astep l a); cbn [agree] in H; try contradiction; auto.
Qed.

Lemma rel_seen s a : rel s a -> same_seen s a.
Proof.
  intros R. split; [apply (r_process _ _ R)|split].
  - pose proof (r_length _ _ R) as HL. assert (H : forall i t x, nth_error (g_threads s) i = Some t -> nth_error (a_threads a) i = Some x -> seen_thread t = aseen_thread x).
    { intros i t x H1 H2. apply (r_threads _ _ R _ _ _ H1 H2). }
    clear R. revert HL H. generalize (a_threads a). induction (g_threads s) as [|t l IH]; intros [|x l'] HL H; cbn in *; try discriminate; auto.
    f_equal; [apply (H 0); auto|]. apply IH; [lia|]. intros i t' x' H1 H2. apply (H (S i)); auto.
  - intros i t x Ht Hx Lx. destruct (r_threads _ _ R _ _ _ Ht Hx) as (H1 & H2). destruct (H2 Lx) as (_ & H3). unfold seen_thread, aseen_thread in H1. injection H1 as H1 _ _ _.
    unfold thread_state. rewrite H1. destruct (a_known x).
    + destruct H3 as (k & K1 & _ & K3 & _). now rewrite K1.
    + destruct H3 as (K1 & K2 & _). now rewrite K1.
Qed.

Theorem refines ls : Forall not_late ls ->
  match grun ls cfg0, arun ls acfg0 with Some s, Some a => same_seen s a | None, None => True | _, _ => False end.
Proof.
  intros HF. pose proof (run_agree ls cfg0 acfg0 HF rel0) as H. destruct (grun ls cfg0), (arun ls acfg0); cbn in H; auto. now apply rel_seen.
Qed.

Lemma reach ls s : Forall not_late ls -> grun ls cfg0 = Some s -> exists a, arun ls acfg0 = Some a /\ rel s a.
Proof.
  intros HF E. pose proof (run_agree ls cfg0 acfg0 HF rel0) as H. rewrite E in H. destruct (arun ls acfg0) as [a|]; cbn in H; [eauto|contradiction].
Qed.
Lemma run_rel ls s a s' : Forall not_late ls -> rel s a -> grun ls s = Some s' -> exists a', arun ls a = Some a' /\ rel s' a'.
Proof. intros HF R E. pose proof (run_agree ls s a HF R) as H. rewrite E in H. destruct (arun ls a) as [a'|]; cbn in H; [eauto|contradiction]. Qed.
Lemma step_rel l s a s' : not_late l -> rel s a -> gstep l s = Some s' -> exists a', astep l a = Some a' /\ rel s' a'.
Proof. intros HF R E. pose proof (step_agree l s a HF R) as H. rewrite E in H. destruct (astep l a) as [a'|]; cbn in H; [eauto|contradiction]. Qed.

Lemma rel_is s a i b : rel s a -> thread_is s i b <-> exists x, nth_error (a_threads a) i = Some x /\ a_live x = true /\ a_on x = b.
Proof.
  intros R. destruct (rel_seen _ _ R) as (_ & _ & S). split.
  - intros (t & Ht & L & E). destruct (rel_nth _ _ _ _ R Ht) as (x & Hx & HT). destruct (trel_seen _ _ _ _ HT) as (_ & T2 & _). exists x.
    assert (Lx : a_live x = true) by congruence. rewrite <- (S _ _ _ Ht Hx Lx). auto.
  - intros (x & Hx & Lx & E). destruct (rel_nth_a _ _ _ _ R Hx) as (t & Ht & HT). destruct (trel_seen _ _ _ _ HT) as (_ & T2 & _). exists t.
    rewrite (S _ _ _ Ht Hx Lx). repeat split; auto; congruence.
Qed.
Lemma rel_events s a i l : rel s a -> events_are s i l <-> exists x, nth_error (a_threads a) i = Some x /\ a_events x = l.
Proof.
  intros R. split.
  - intros (t & Ht & E). destruct (rel_nth _ _ _ _ R Ht) as (x & Hx & HT). destruct (trel_seen _ _ _ _ HT) as (_ & _ & _ & T4). exists x. split; congruence.
  - intros (x & Hx & E). destruct (rel_nth_a _ _ _ _ R Hx) as (t & Ht & HT). destruct (trel_seen _ _ _ _ HT) as (_ & _ & _ & T4). exists t. split; congruence.
Qed.
Lemma rel_scopes_are s a i l : rel s a -> scopes_are s i l <-> exists x, nth_error (a_threads a) i = Some x /\ a_scopes x = l.
Proof.
  intros R. split.
  - intros (t & Ht & E). destruct (rel_nth _ _ _ _ R Ht) as (x & Hx & HT). destruct (trel_seen _ _ _ _ HT) as (_ & _ & T3 & _). exists x. split; congruence.
  - intros (x & Hx & E). destruct (rel_nth_a _ _ _ _ R Hx) as (t & Ht & HT). destruct (trel_seen _ _ _ _ HT) as (_ & _ & T3 & _). exists t. split; congruence.
Qed.

(** A tracepoint in the state in which it is run. *)
Theorem tracepoint_emits ls s i p time room s' :
  Forall not_late ls -> grun ls cfg0 = Some s -> gstep (GTrace i p time room) s = Some s' ->
  exists on evs, thread_is s i on /\ events_are s i evs /\
   events_are s' i (evs ++ if g_process s && on && room then [event_of p time] else []) /\
   (forall j l, j <> i -> events_are s j l -> events_are s' j l) /\
   g_process s' = g_process s /\ (forall j b, thread_is s j b -> thread_is s' j b).
Proof.
  intros HF E HS. destruct (reach _ _ HF E) as (a & _ & R). destruct (step_rel (GTrace i p time room) _ _ _ I R HS) as (a' & EA & R').
  cbn in EA. destruct (nth_error (a_threads a) i) as [x|] eqn:Ex; [|discriminate]. destruct (a_live x) eqn:EL; [|discriminate]. injection EA as <-.
  assert (Hi : i < length (a_threads a)) by (apply nth_error_Some; congruence).
  exists (a_on x), (a_events x). split; [apply (rel_is _ _ _ _ R); eauto|]. split; [apply (rel_events _ _ _ _ R); eauto|]. split; [|split; [|split]].
  - apply (rel_events _ _ _ _ R'). eexists. cbn. rewrite set_nth_same by auto. split; [reflexivity|]. cbn. now rewrite (r_process _ _ R).
  - intros j l Hj Hl. apply (rel_events _ _ _ _ R) in Hl. destruct Hl as (y & Hy & Ey). apply (rel_events _ _ _ _ R'). exists y. cbn. rewrite set_nth_other by auto. auto.
  - rewrite (r_process _ _ R'), (r_process _ _ R). reflexivity.
  - intros j b Hb. apply (rel_is _ _ _ _ R) in Hb. destruct Hb as (y & Hy & Ly & Oy). apply (rel_is _ _ _ _ R'). destruct (Nat.eq_dec j i) as [->|Hn].
    + rewrite Ex in Hy. injection Hy as <-. eexists. cbn. rewrite set_nth_same by auto. split; [reflexivity|]. cbn. auto.
    + exists y. cbn. rewrite set_nth_other by auto. auto.
Qed.

Theorem event_readable p time : reads_as (event_of p time) = Some (p, time).
Proof. destruct p as [| |[| |]|]; reflexivity. Qed.

(** What a step of another thread leaves alone. *)
Lemma other_thread l a a' i x : astep l a = Some a' -> nth_error (a_threads a) i = Some x -> thread_of l <> Some i -> (forall r, l <> GRemote r) ->
  nth_error (a_threads a') i = Some x.
Proof.
  intros H Hx Ht Hr. assert (Hi : i < length (a_threads a)) by (apply nth_error_Some; congruence).
  destruct l as [tid|j p time room|j|j b|b|j isp b|j|r|j|j b]; cbn in H, Ht;
    try (destruct (nth_error (a_threads a) j) as [y|] eqn:Ey; [|discriminate]; destruct (a_live y) eqn:EL; [|discriminate]);
    try discriminate; try (injection H as <-; cbn; try rewrite set_nth_other by congruence; auto; fail).
  - destruct (existsb _ _); [discriminate|]. injection H as <-. cbn. now rewrite nth_error_app1.
  - injection H as <-. destruct isp; cbn; rewrite set_nth_other by congruence; auto.
  - destruct (a_scopes y) as [|[[|] prev] r]; [discriminate| |]; injection H as <-; cbn; rewrite set_nth_other by congruence; auto.
  - exfalso. eapply Hr; eauto.
Qed.

Theorem threads_independent ls s l s' i b :
  Forall not_late ls -> grun ls cfg0 = Some s -> not_late l -> gstep l s = Some s' -> thread_is s i b ->
  thread_of l <> Some i -> (forall r, l <> GRemote r) -> thread_is s' i b /\ (forall evs, events_are s i evs -> events_are s' i evs).
Proof.
  intros HF E NL HS HI HT HR. destruct (reach _ _ HF E) as (a & _ & R). destruct (step_rel _ _ _ _ NL R HS) as (a' & EA & R').
  apply (rel_is _ _ _ _ R) in HI. destruct HI as (x & Hx & Lx & Ox). pose proof (other_thread _ _ _ _ _ EA Hx HT HR) as Hx'. split.
  - apply (rel_is _ _ _ _ R'). eauto.
  - intros evs He. apply (rel_events _ _ _ _ R) in He. destruct He as (y & Hy & Ey). apply (rel_events _ _ _ _ R'). exists x. split; auto. congruence.
Qed.

Theorem thread_starts_enabled ls s tid s' :
  Forall not_late ls -> grun ls cfg0 = Some s -> gstep (GStart tid) s = Some s' -> thread_is s' (length (g_threads s)) true.
Proof.
  intros HF E HS. destruct (reach _ _ HF E) as (a & _ & R). destruct (step_rel (GStart tid) _ _ _ I R HS) as (a' & EA & R').
  cbn in EA. destruct (existsb _ _); [discriminate|]. injection EA as <-. apply (rel_is _ _ _ _ R'). rewrite (r_length _ _ R). eexists. cbn.
  rewrite nth_error_app2, Nat.sub_diag by lia. split; [reflexivity|]. auto.
Qed.

(** ** Structured programs *)
Lemma steps_app i l1 l2 : steps_of i (l1 ++ l2) = steps_of i l1 ++ steps_of i l2.
Proof. apply filter_app. Qed.
Lemma steps_split i : forall ls l1 l2, steps_of i ls = l1 ++ l2 -> exists ls1 ls2, ls = ls1 ++ ls2 /\ steps_of i ls1 = l1 /\ steps_of i ls2 = l2.
Proof.
  induction ls as [|l ls IH]; intros l1 l2 H.
  - cbn in H. symmetry in H. apply app_eq_nil in H. destruct H as (-> & ->). exists [], []. auto.
  - unfold steps_of in H. cbn in H. fold (steps_of i ls) in H. destruct (match thread_of l with Some j => j =? i | None => false end) eqn:E.
    + destruct l1 as [|l' l1].
      * exists [], (l :: ls). repeat split. unfold steps_of. cbn. rewrite E. exact H.
      * cbn in H. injection H as <- H. destruct (IH _ _ H) as (ls1 & ls2 & -> & H1 & H2). exists (l :: ls1), ls2. repeat split; auto.
        unfold steps_of. cbn. rewrite E. f_equal. exact H1.
    + destruct (IH _ _ H) as (ls1 & ls2 & -> & H1 & H2). exists (l :: ls1), ls2. repeat split; auto. unfold steps_of. cbn. rewrite E. exact H1.
Qed.
Lemma steps_cons i ls l l2 : steps_of i ls = l :: l2 -> exists ls1 ls2, ls = ls1 ++ l :: ls2 /\ steps_of i ls1 = [] /\ steps_of i ls2 = l2.
Proof.
  induction ls as [|l0 ls IH]; intros H; [discriminate|]. unfold steps_of in H. cbn in H. fold (steps_of i ls) in H.
  destruct (match thread_of l0 with Some j => j =? i | None => false end) eqn:E.
  - injection H as -> H. exists [], ls. auto.
  - destruct (IH H) as (ls1 & ls2 & -> & H1 & H2). exists (l0 :: ls1), ls2. repeat split; auto. unfold steps_of. cbn. rewrite E. exact H1.
Qed.
Lemma arun_app : forall l1 l2 a, arun (l1 ++ l2) a = match arun l1 a with Some a' => arun l2 a' | None => None end.
Proof. induction l1 as [|l l1 IH]; intros l2 a; cbn [arun app]; auto. destruct (astep l a); auto. Qed.

Lemma steps_none i l ls : steps_of i (l :: ls) = [] -> thread_of l <> Some i /\ steps_of i ls = [].
Proof.
  unfold steps_of. cbn. intros H. destruct (thread_of l) as [j|]; [|split; [discriminate|auto]].
  destruct (Nat.eqb_spec j i); [discriminate|]. split; [congruence|auto].
Qed.

(** Steps of others leave the open scopes of a thread alone. *)
Lemma scopes_others i : forall ls a a' x, steps_of i ls = [] -> arun ls a = Some a' -> nth_error (a_threads a) i = Some x -> a_live x = true ->
  exists x', nth_error (a_threads a') i = Some x' /\ a_live x' = true /\ a_scopes x' = a_scopes x.
Proof.
  induction ls as [|l ls IH]; intros a a' x HS HR Hx Lx; cbn [arun] in HR.
  - injection HR as <-. eauto.
  - destruct (steps_none _ _ _ HS) as (N & HS'). destruct (astep l a) as [a1|] eqn:E; [|discriminate].
    assert (H : exists x1, nth_error (a_threads a1) i = Some x1 /\ a_live x1 = true /\ a_scopes x1 = a_scopes x).
    { destruct l as [| | | | | | |r| |]; try (exists x; split; [eapply other_thread; eauto; discriminate|auto]; fail).
      destruct r as [|sp p ths]; cbn in E; injection E as <-; [eauto|]. cbn. rewrite nth_error_map, Hx. cbn. eexists. split; [reflexivity|].
      unfold remote_thread. destruct (a_live x && a_known x); auto. destruct (asked ths (a_tid x)); auto. }
    destruct H as (x1 & H1 & H2 & H3). destruct (IH _ _ _ HS' HR H1 H2) as (x' & H4 & H5 & H6). exists x'. repeat split; auto. congruence.
Qed.

Lemma scopes_balanced i p : forall ls a a' x, steps_of i ls = fst (calls_of i p) -> arun ls a = Some a' -> nth_error (a_threads a) i = Some x -> a_live x = true ->
  exists x', nth_error (a_threads a') i = Some x' /\ a_live x' = true /\ a_scopes x' = a_scopes x.
Proof.
  assert (TR : forall t tm rm a a1 x, astep (GTrace i t tm rm) a = Some a1 -> nth_error (a_threads a) i = Some x ->
     exists x1, nth_error (a_threads a1) i = Some x1 /\ a_live x1 = true /\ a_scopes x1 = a_scopes x).
  { intros t tm rm a a1 x H Hx. cbn in H. rewrite Hx in H. destruct (a_live x) eqn:EL; [|discriminate]. injection H as <-. eexists. cbn.
    rewrite set_nth_same by (apply nth_error_Some; congruence). split; [reflexivity|]. auto. }
  induction p as [|t tm|p IHp q IHq|id t1 t2 p IHp|isp b p IHp| |p IHp q IHq]; intros ls a a' x HS HR Hx Lx; cbn in HS.
  - eapply scopes_others; eauto.
  - destruct (steps_cons _ _ _ _ HS) as (l1 & l2 & -> & S1 & S2). rewrite arun_app in HR. destruct (arun l1 a) as [a1|] eqn:E1; [|discriminate]. cbn [arun] in HR.
    destruct (astep _ a1) as [a2|] eqn:E2; [|discriminate]. destruct (scopes_others _ _ _ _ _ S1 E1 Hx Lx) as (x1 & H1 & L1 & C1).
    destruct (TR _ _ _ _ _ _ E2 H1) as (x2 & H2 & L2 & C2). destruct (scopes_others _ _ _ _ _ S2 HR H2 L2) as (x3 & H3 & L3 & C3). exists x3. repeat split; auto. congruence.
  - destruct (calls_of i p) as [lp xp] eqn:Ep. destruct xp.
    + cbn in HS. eapply IHp; eauto.
    + destruct (calls_of i q) as [lq xq] eqn:Eq. cbn in HS. destruct (steps_split _ _ _ _ HS) as (l1 & l2 & -> & S1 & S2). rewrite arun_app in HR.
      destruct (arun l1 a) as [a1|] eqn:E1; [|discriminate]. destruct (IHp _ _ _ _ S1 E1 Hx Lx) as (x1 & H1 & L1 & C1).
      destruct (IHq _ _ _ _ S2 HR H1 L1) as (x2 & H2 & L2 & C2). exists x2. repeat split; auto. congruence.
  - destruct (calls_of i p) as [lp xp] eqn:Ep. cbn in HS, IHp.
    destruct (steps_cons _ _ _ _ HS) as (l1 & l2 & -> & S1 & S2). rewrite arun_app in HR. destruct (arun l1 a) as [a1|] eqn:E1; [|discriminate]. cbn [arun] in HR.
    destruct (astep _ a1) as [a2|] eqn:E2; [|discriminate]. destruct (scopes_others _ _ _ _ _ S1 E1 Hx Lx) as (x1 & H1 & L1 & C1).
    destruct (TR _ _ _ _ _ _ E2 H1) as (x2 & H2 & L2 & C2).
    destruct (steps_split _ _ _ _ S2) as (l3 & l4 & -> & S3 & S4). rewrite arun_app in HR. destruct (arun l3 a2) as [a3|] eqn:E3; [|discriminate].
    destruct (IHp _ _ _ _ S3 E3 H2 L2) as (x3 & H3 & L3 & C3).
    destruct (steps_cons _ _ _ _ S4) as (l5 & l6 & -> & S5 & S6). rewrite arun_app in HR. destruct (arun l5 a3) as [a4|] eqn:E4; [|discriminate]. cbn [arun] in HR.
    destruct (astep _ a4) as [a5|] eqn:E5; [|discriminate]. destruct (scopes_others _ _ _ _ _ S5 E4 H3 L3) as (x4 & H4 & L4 & C4).
    destruct (TR _ _ _ _ _ _ E5 H4) as (x5 & H5 & L5 & C5). destruct (scopes_others _ _ _ _ _ S6 HR H5 L5) as (x6 & H6 & L6 & C6). exists x6. repeat split; auto. congruence.
  - destruct (calls_of i p) as [lp xp] eqn:Ep. cbn in HS, IHp.
    destruct (steps_cons _ _ _ _ HS) as (l1 & l2 & -> & S1 & S2). rewrite arun_app in HR. destruct (arun l1 a) as [a1|] eqn:E1; [|discriminate]. cbn [arun] in HR.
    destruct (astep _ a1) as [a2|] eqn:E2; [|discriminate]. destruct (scopes_others _ _ _ _ _ S1 E1 Hx Lx) as (x1 & H1 & L1 & C1).
    assert (H : exists x2 v, nth_error (a_threads a2) i = Some x2 /\ a_live x2 = true /\ a_scopes x2 = (isp, v) :: a_scopes x1).
    { cbn in E2. rewrite H1, L1 in E2. assert (i < length (a_threads a1)) by (apply nth_error_Some; congruence). injection E2 as <-.
      destruct isp; cbn; rewrite set_nth_same by auto; do 2 eexists; (split; [reflexivity|]); cbn; split; reflexivity. }
    destruct H as (x2 & v & H2 & L2 & C2).
    destruct (steps_split _ _ _ _ S2) as (l3 & l4 & -> & S3 & S4). rewrite arun_app in HR. destruct (arun l3 a2) as [a3|] eqn:E3; [|discriminate].
    destruct (IHp _ _ _ _ S3 E3 H2 L2) as (x3 & H3 & L3 & C3).
    destruct (steps_cons _ _ _ _ S4) as (l5 & l6 & -> & S5 & S6). rewrite arun_app in HR. destruct (arun l5 a3) as [a4|] eqn:E4; [|discriminate]. cbn [arun] in HR.
    destruct (astep _ a4) as [a5|] eqn:E5; [|discriminate]. destruct (scopes_others _ _ _ _ _ S5 E4 H3 L3) as (x4 & H4 & L4 & C4).
    assert (H : exists x5, nth_error (a_threads a5) i = Some x5 /\ a_live x5 = true /\ a_scopes x5 = a_scopes x1).
    { cbn in E5. rewrite H4, L4 in E5. assert (i < length (a_threads a4)) by (apply nth_error_Some; congruence). rewrite C4, C3, C2 in E5.
      destruct isp; injection E5 as <-; cbn; rewrite set_nth_same by auto; eexists; (split; [reflexivity|]); cbn; split; reflexivity. }
    destruct H as (x5 & H5 & L5 & C5). destruct (scopes_others _ _ _ _ _ S6 HR H5 L5) as (x6 & H6 & L6 & C6). exists x6. repeat split; auto. congruence.
  - eapply scopes_others; eauto.
  - destruct (calls_of i p) as [lp xp] eqn:Ep. destruct xp.
    + destruct (calls_of i q) as [lq xq] eqn:Eq. cbn in HS. destruct (steps_split _ _ _ _ HS) as (l1 & l2 & -> & S1 & S2). rewrite arun_app in HR.
      destruct (arun l1 a) as [a1|] eqn:E1; [|discriminate]. destruct (IHp _ _ _ _ S1 E1 Hx Lx) as (x1 & H1 & L1 & C1).
      destruct (IHq _ _ _ _ S2 HR H1 L1) as (x2 & H2 & L2 & C2). exists x2. repeat split; auto. congruence.
    + cbn in HS. eapply IHp; eauto.
Qed.

Lemma grun_app : forall l1 l2 s, grun (l1 ++ l2) s = match grun l1 s with Some s' => grun l2 s' | None => None end.
Proof. induction l1 as [|l l1 IH]; intros l2 s; cbn [grun app]; auto. destruct (gstep l s); auto. Qed.

(** A scoped change is undone when its scope is left, whatever the thread does inside and whatever other threads do. *)
Theorem scope_exit_restores ls0 s0 i isp b p ls s1 s2 s3 on0 :
  Forall not_late ls0 -> grun ls0 cfg0 = Some s0 -> thread_is s0 i on0 ->
  gstep (GScope i isp b) s0 = Some s1 ->
  steps_of i ls = fst (calls_of i p) -> Forall not_late ls -> grun ls s1 = Some s2 ->
  gstep (GUnscope i) s2 = Some s3 ->
  (if isp then g_process s1 = b /\ g_process s3 = g_process s0 /\ (forall j v, thread_is s2 j v -> thread_is s3 j v)
   else thread_is s1 i b /\ thread_is s3 i on0 /\ g_process s3 = g_process s2 /\ (forall j v, j <> i -> thread_is s2 j v -> thread_is s3 j v)).
Proof.
  intros F0 E0 T0 O S F1 E1 U. destruct (reach _ _ F0 E0) as (a0 & _ & R0). destruct (step_rel (GScope i isp b) _ _ _ I R0 O) as (a1 & A1 & R1).
  destruct (run_rel _ _ _ _ F1 R1 E1) as (a2 & A2 & R2). destruct (step_rel (GUnscope i) _ _ _ I R2 U) as (a3 & A3 & R3).
  apply (rel_is _ _ _ _ R0) in T0. destruct T0 as (x0 & X0 & L0 & O0). assert (Hi0 : i < length (a_threads a0)) by (apply nth_error_Some; congruence).
  cbn in A1. rewrite X0, L0 in A1. injection A1 as A1.
  assert (H : exists x1, nth_error (a_threads a1) i = Some x1 /\ a_live x1 = true /\ a_scopes x1 = (isp, if isp then a_process a0 else a_on x0) :: a_scopes x0).
  2: { destruct H as (x1 & X1 & L1 & C1). destruct (scopes_balanced _ _ _ _ _ _ S A2 X1 L1) as (x2 & X2 & L2 & C2).
       assert (Hi2 : i < length (a_threads a2)) by (apply nth_error_Some; congruence). cbn in A3. rewrite X2, L2, C2, C1 in A3. clear X1. subst a1. destruct isp.
       - injection A3 as <-. rewrite (r_process _ _ R1), (r_process _ _ R3), (r_process _ _ R0). cbn. repeat split; auto. intros j v Hv.
         apply (rel_is _ _ _ _ R2) in Hv. destruct Hv as (y & Y & Ly & Oy). apply (rel_is _ _ _ _ R3). cbn. destruct (Nat.eq_dec j i) as [->|Hn].
         + rewrite X2 in Y. injection Y as <-. rewrite set_nth_same by auto. eexists. split; [reflexivity|]. auto.
         + rewrite set_nth_other by auto. eauto.
       - injection A3 as <-. split; [|split; [|split]].
         + apply (rel_is _ _ _ _ R1). cbn. rewrite set_nth_same by auto. eexists. split; [reflexivity|]. auto.
         + apply (rel_is _ _ _ _ R3). cbn. rewrite set_nth_same by auto. eexists. split; [reflexivity|]. auto.
         + rewrite (r_process _ _ R3), (r_process _ _ R2). reflexivity.
         + intros j v Hn Hv. apply (rel_is _ _ _ _ R2) in Hv. destruct Hv as (y & Y & Ly & Oy). apply (rel_is _ _ _ _ R3). cbn. rewrite set_nth_other by auto. eauto. }
  subst a1. destruct isp; cbn; rewrite set_nth_same by auto; eexists; (split; [reflexivity|]); cbn; split; reflexivity.
Qed.

(** ** Nesting *)
Lemma nested_app l l' : nested l -> nested l' -> nested (l ++ l').
Proof.
  induction 1 as [|e l H1 H2 H IH|b e l l1 Hb He Hid H IH H' IH']; intros Hn; cbn; auto.
  - constructor; auto.
  - rewrite <- app_assoc. cbn. apply nest_pair; auto.
Qed.

(** Other threads have no process-wide scopes open. *)
Definition quiet (i : nat) (a : acfg) : Prop :=
  forall j y v, j <> i -> nth_error (a_threads a) j = Some y -> ~ In (true, v) (a_scopes y).

Lemma minds_step l a a' i x : minds_own_business i l -> thread_of l <> Some i -> quiet i a -> astep l a = Some a' -> nth_error (a_threads a) i = Some x ->
  a_process a' = a_process a /\ nth_error (a_threads a') i = Some x /\ quiet i a'.
Proof.
  intros M T Q H Hx. assert (Hx' : nth_error (a_threads a') i = Some x) by (eapply other_thread; eauto; intros r ->; exact M).
  assert (SN : forall k y l0, k < length l0 -> (forall j z v, j <> i -> nth_error l0 j = Some z -> ~ In (true, v) (a_scopes z)) ->
     (forall v, ~ In (true, v) (a_scopes y)) -> forall j z v, j <> i -> nth_error (set_nth k y l0) j = Some z -> ~ In (true, v) (a_scopes z)).
  { intros k y l0 Hk Q0 Hy j z v Hj Hz. apply (set_nth_case _ _ _ _ _ Hk) in Hz. destruct Hz as [(-> & ->)|(_ & Hz)]; eauto. }
  destruct l as [tid|j p time room|j|j b|b|j isp b|j|r|j|j b]; cbn in H, T, M; try contradiction;
    try (destruct (nth_error (a_threads a) j) as [y|] eqn:Ey; [|discriminate]; destruct (a_live y) eqn:EL; [|discriminate]; assert (Hj : j < length (a_threads a)) by (apply nth_error_Some; congruence);
         assert (Hn : j <> i) by congruence).
  - destruct (existsb _ _); [discriminate|]. injection H as <-. cbn in *. split; auto. split; auto. intros j y v Hj Hy. cbn in Hy. apply nth_error_snoc in Hy. destruct Hy as [Hy|(_ & <-)]; [eauto|]. intros [].
  - injection H as <-. split; auto. split; auto. unfold quiet. cbn. eapply SN; eauto. cbn. eauto.
  - injection H as <-. split; auto. split; auto. unfold quiet. cbn. eapply SN; eauto. cbn. eauto.
  - injection H as <-. split; auto. split; auto. unfold quiet. cbn. eapply SN; eauto. cbn. eauto.
  - destruct M as [M|M]; [congruence|]. subst isp. injection H as <-. split; auto. split; auto. unfold quiet. cbn. eapply SN; eauto. cbn. intros v [E|E]; [discriminate|]. eapply Q; eauto.
  - destruct (a_scopes y) as [|[[|] prev] r] eqn:ES; [discriminate| |].
    + exfalso. eapply (Q j y prev); eauto. rewrite ES. left. reflexivity.
    + injection H as <-. split; auto. split; auto. unfold quiet. cbn. eapply SN; eauto. cbn. intros v Hv. eapply (Q j y v); eauto. rewrite ES. right. auto.
  - injection H as <-. split; auto. split; auto. unfold quiet. cbn. eapply SN; eauto. cbn. eauto.
Qed.

Lemma minds_others i : forall ls a a' x, Forall (minds_own_business i) ls -> steps_of i ls = [] -> quiet i a -> arun ls a = Some a' -> nth_error (a_threads a) i = Some x ->
  a_process a' = a_process a /\ nth_error (a_threads a') i = Some x /\ quiet i a'.
Proof.
  induction ls as [|l ls IH]; intros a a' x HF HS Q HR Hx; cbn [arun] in HR.
  - injection HR as <-. auto.
  - inversion HF; subst. destruct (steps_none _ _ _ HS) as (N & HS'). destruct (astep l a) as [a1|] eqn:E; [|discriminate].
    destruct (minds_step _ _ _ _ _ H1 N Q E Hx) as (P1 & X1 & Q1). destruct (IH _ _ _ H2 HS' Q1 HR X1) as (P2 & X2 & Q2). split; [congruence|auto].
Qed.

(** The state of the thread after its program: as before, plus nested events. *)
Definition after (i : nat) (a : acfg) (x : athr) (a' : acfg) : Prop :=
  a_process a' = a_process a /\ quiet i a' /\
 exists x' evs, nth_error (a_threads a') i = Some x' /\ a_live x' = true /\ a_on x' = a_on x /\ a_scopes x' = a_scopes x /\ a_events x' = a_events x ++ evs /\ nested evs.

Lemma quiet_set i x a pr : quiet i a -> i < length (a_threads a) -> quiet i {| a_process := pr; a_threads := set_nth i x (a_threads a) |}.
Proof. intros Q Hi j y v Hj Hy. cbn in Hy. rewrite set_nth_other in Hy by auto. eauto. Qed.

Lemma trace_own i t tm a a1 x : astep (GTrace i t tm true) a = Some a1 -> quiet i a -> nth_error (a_threads a) i = Some x ->
  a_process a1 = a_process a /\ quiet i a1 /\
 exists x1, nth_error (a_threads a1) i = Some x1 /\ a_live x1 = true /\ a_on x1 = a_on x /\ a_scopes x1 = a_scopes x /\
   a_events x1 = a_events x ++ (if a_process a && a_on x then [event_of t tm] else []).
Proof.
  intros H Q Hx. assert (Hi : i < length (a_threads a)) by (apply nth_error_Some; congruence).
  cbn in H. rewrite Hx in H. destruct (a_live x) eqn:EL; [|discriminate]. injection H as <-. split; auto. split; [apply quiet_set; auto|].
  eexists. cbn. rewrite set_nth_same by auto. split; [reflexivity|]. cbn. rewrite andb_true_r. auto.
Qed.

Lemma program_nested i p : forall ls a a' x, scoped_only p -> Forall (minds_own_business i) ls -> quiet i a ->
  steps_of i ls = fst (calls_of i p) -> arun ls a = Some a' -> nth_error (a_threads a) i = Some x -> a_live x = true -> after i a x a'.
Proof.
  assert (OTH : forall ls a a' x, Forall (minds_own_business i) ls -> quiet i a -> steps_of i ls = [] -> arun ls a = Some a' -> nth_error (a_threads a) i = Some x -> a_live x = true -> after i a x a').
  { intros ls a a' x HF Q HS HR Hx Lx. destruct (minds_others _ _ _ _ _ HF HS Q HR Hx) as (P1 & X1 & Q1). split; auto. split; auto. exists x, []. rewrite app_nil_r. repeat split; auto. constructor. }
  assert (SEQ : forall a x a1 a2 x1, after i a x a1 -> nth_error (a_threads a1) i = Some x1 -> after i a1 x1 a2 -> after i a x a2).
  { intros a x a1 a2 x1 (P1 & Q1 & y1 & e1 & Y1 & L1 & O1 & C1 & E1 & N1) Hx1 (P2 & Q2 & y2 & e2 & Y2 & L2 & O2 & C2 & E2 & N2).
    rewrite Hx1 in Y1. injection Y1 as <-. split; [congruence|]. split; auto. exists y2, (e1 ++ e2). repeat split; auto; try congruence.
    - rewrite E2, E1. now rewrite app_assoc.
    - now apply nested_app. }
  assert (GET : forall a x a1, after i a x a1 -> exists x1, nth_error (a_threads a1) i = Some x1 /\ a_live x1 = true /\ quiet i a1 /\ a_process a1 = a_process a /\ a_on x1 = a_on x /\ a_scopes x1 = a_scopes x).
  { intros a x a1 (P1 & Q1 & y1 & e1 & Y1 & L1 & O1 & C1 & E1 & N1). exists y1. auto 10. }
  induction p as [|t tm|p IHp q IHq|id t1 t2 p IHp|isp b p IHp| |p IHp q IHq]; intros ls a a' x SO HF Q HS HR Hx Lx; cbn in HS; cbn [scoped_only] in SO.
  - eapply OTH; eauto.
  - destruct (steps_cons _ _ _ _ HS) as (l1 & l2 & -> & S1 & S2). apply Forall_app in HF. destruct HF as (F1 & F2). inversion F2 as [|? ? _ F3]; subst.
    rewrite arun_app in HR. destruct (arun l1 a) as [a1|] eqn:E1; [|discriminate]. cbn [arun] in HR.
    destruct (astep _ a1) as [a2|] eqn:E2; [|discriminate]. pose proof (OTH _ _ _ _ F1 Q S1 E1 Hx Lx) as A1. destruct (GET _ _ _ A1) as (x1 & H1 & L1 & Q1 & P1 & O1 & C1).
    destruct (trace_own _ _ _ _ _ _ E2 Q1 H1) as (P2 & Q2 & x2 & H2 & L2 & O2 & C2 & V2).
    assert (A2 : after i a1 x1 a2).
    { split; auto. split; auto. exists x2, (if a_process a1 && a_on x1 then [event_of t tm] else []). repeat split; auto.
      destruct (a_process a1 && a_on x1); [|constructor]. destruct t as [| |[| |]|]; try contradiction; constructor; try discriminate; constructor. }
    eapply SEQ; [exact A1|exact H1|]. eapply SEQ; [exact A2|exact H2|]. eapply OTH; eauto.
  - destruct SO as (SO1 & SO2). destruct (calls_of i p) as [lp xp] eqn:Ep. destruct xp.
    + cbn in HS. eapply IHp; eauto.
    + destruct (calls_of i q) as [lq xq] eqn:Eq. cbn in HS. destruct (steps_split _ _ _ _ HS) as (l1 & l2 & -> & S1 & S2). apply Forall_app in HF. destruct HF as (F1 & F2). rewrite arun_app in HR.
      destruct (arun l1 a) as [a1|] eqn:E1; [|discriminate]. pose proof (IHp _ _ _ _ SO1 F1 Q S1 E1 Hx Lx) as A1. destruct (GET _ _ _ A1) as (x1 & H1 & L1 & Q1 & _).
      eapply SEQ; [exact A1|exact H1|]. eapply IHq; eauto.
  - destruct (calls_of i p) as [lp xp] eqn:Ep. cbn in HS, IHp.
    destruct (steps_cons _ _ _ _ HS) as (l1 & l2 & -> & S1 & S2). apply Forall_app in HF. destruct HF as (F1 & F2). inversion F2 as [|? ? _ F3]; subst.
    rewrite arun_app in HR. destruct (arun l1 a) as [a1|] eqn:E1; [|discriminate]. cbn [arun] in HR.
    destruct (astep _ a1) as [a2|] eqn:E2; [|discriminate]. pose proof (OTH _ _ _ _ F1 Q S1 E1 Hx Lx) as A1. destruct (GET _ _ _ A1) as (x1 & H1 & L1 & Q1 & P1 & O1 & C1).
    destruct (trace_own _ _ _ _ _ _ E2 Q1 H1) as (P2 & Q2 & x2 & H2 & L2 & O2 & C2 & V2).
    destruct (steps_split _ _ _ _ S2) as (l3 & l4 & -> & S3 & S4). apply Forall_app in F3. destruct F3 as (F3 & F4). rewrite arun_app in HR. destruct (arun l3 a2) as [a3|] eqn:E3; [|discriminate].
    pose proof (IHp _ _ _ _ SO F3 Q2 S3 E3 H2 L2) as A3. destruct A3 as (P3 & Q3 & x3 & e3 & H3 & L3 & O3 & C3 & V3 & N3).
    destruct (steps_cons _ _ _ _ S4) as (l5 & l6 & -> & S5 & S6). apply Forall_app in F4. destruct F4 as (F5 & F6). inversion F6 as [|? ? _ F7]; subst.
    rewrite arun_app in HR. destruct (arun l5 a3) as [a4|] eqn:E4; [|discriminate]. cbn [arun] in HR.
    destruct (astep _ a4) as [a5|] eqn:E5; [|discriminate]. pose proof (OTH _ _ _ _ F5 Q3 S5 E4 H3 L3) as (P4 & Q4 & x4 & e4 & H4 & L4 & O4 & C4 & V4 & N4).
    destruct (trace_own _ _ _ _ _ _ E5 Q4 H4) as (P5 & Q5 & x5 & H5 & L5 & O5 & C5 & V5).
    assert (A2 : after i a1 x1 a5).
    { split; [congruence|]. split; auto. eexists x5, _. split; [exact H5|]. split; auto. split; [congruence|]. split; [congruence|]. split.
      - rewrite V5, V4, V3, V2. rewrite <- !app_assoc. reflexivity.
      - replace (a_process a4 && a_on x4) with (a_process a1 && a_on x1) by (f_equal; congruence). destruct (a_process a1 && a_on x1).
        + cbn. rewrite app_assoc. apply nest_pair; auto; [now apply nested_app|constructor].
        + cbn. rewrite app_nil_r. now apply nested_app. }
    eapply SEQ; [exact A1|exact H1|]. eapply SEQ; [exact A2|exact H5|]. eapply OTH; eauto.
  - destruct (calls_of i p) as [lp xp] eqn:Ep. cbn in HS, IHp.
    destruct (steps_cons _ _ _ _ HS) as (l1 & l2 & -> & S1 & S2). apply Forall_app in HF. destruct HF as (F1 & F2). inversion F2 as [|? ? _ F3]; subst.
    rewrite arun_app in HR. destruct (arun l1 a) as [a1|] eqn:E1; [|discriminate]. cbn [arun] in HR.
    destruct (astep _ a1) as [a2|] eqn:E2; [|discriminate]. pose proof (OTH _ _ _ _ F1 Q S1 E1 Hx Lx) as A1. destruct (GET _ _ _ A1) as (x1 & H1 & L1 & Q1 & P1 & O1 & C1).
    assert (Hi1 : i < length (a_threads a1)) by (apply nth_error_Some; congruence).
    assert (H : quiet i a2 /\ exists x2, nth_error (a_threads a2) i = Some x2 /\ a_live x2 = true /\ a_scopes x2 = (isp, if isp then a_process a1 else a_on x1) :: a_scopes x1 /\
               a_events x2 = a_events x1 /\ (if isp then a_on x2 = a_on x1 else a_process a2 = a_process a1)).
    { cbn in E2. rewrite H1, L1 in E2. injection E2 as <-. split; [destruct isp; unfold a_set; apply quiet_set; auto|].
      destruct isp; cbn; rewrite set_nth_same by auto; eexists; (split; [reflexivity|]); cbn; auto. }
    destruct H as (Q2 & x2 & H2 & L2 & C2 & V2 & O2).
    destruct (steps_split _ _ _ _ S2) as (l3 & l4 & -> & S3 & S4). apply Forall_app in F3. destruct F3 as (F3 & F4). rewrite arun_app in HR. destruct (arun l3 a2) as [a3|] eqn:E3; [|discriminate].
    pose proof (IHp _ _ _ _ SO F3 Q2 S3 E3 H2 L2) as A3. destruct A3 as (P3 & Q3 & x3 & e3 & H3 & L3 & O3 & C3 & V3 & N3).
    destruct (steps_cons _ _ _ _ S4) as (l5 & l6 & -> & S5 & S6). apply Forall_app in F4. destruct F4 as (F5 & F6). inversion F6 as [|? ? _ F7]; subst.
    rewrite arun_app in HR. destruct (arun l5 a3) as [a4|] eqn:E4; [|discriminate]. cbn [arun] in HR.
    destruct (astep _ a4) as [a5|] eqn:E5; [|discriminate]. pose proof (OTH _ _ _ _ F5 Q3 S5 E4 H3 L3) as (P4 & Q4 & x4 & e4 & H4 & L4 & O4 & C4 & V4 & N4).
    assert (Hi4 : i < length (a_threads a4)) by (apply nth_error_Some; congruence).
    assert (A2 : after i a1 x1 a5).
    { cbn in E5. rewrite H4, L4, C4, C3, C2 in E5. destruct isp; injection E5 as <-.
      - split; [reflexivity|]. split; [apply quiet_set; auto|]. eexists _, (e3 ++ e4). cbn. rewrite set_nth_same by auto. split; [reflexivity|]. cbn. split; auto. split; [congruence|]. split; auto. split.
        + rewrite V4, V3, V2. now rewrite app_assoc.
        + now apply nested_app.
      - split; [cbn; congruence|]. split; [unfold a_set; apply quiet_set; auto|]. eexists _, (e3 ++ e4). cbn. rewrite set_nth_same by auto. split; [reflexivity|]. cbn. split; auto. split; auto. split; auto. split.
        + rewrite V4, V3, V2. now rewrite app_assoc.
        + now apply nested_app. }
    destruct (GET _ _ _ A2) as (x5 & H5 & L5 & Q5 & _).
    eapply SEQ; [exact A1|exact H1|]. eapply SEQ; [exact A2|exact H5|]. eapply OTH; eauto.
  - eapply OTH; eauto.
  - destruct SO as (SO1 & SO2). destruct (calls_of i p) as [lp xp] eqn:Ep. destruct xp.
    + destruct (calls_of i q) as [lq xq] eqn:Eq. cbn in HS. destruct (steps_split _ _ _ _ HS) as (l1 & l2 & -> & S1 & S2). apply Forall_app in HF. destruct HF as (F1 & F2). rewrite arun_app in HR.
      destruct (arun l1 a) as [a1|] eqn:E1; [|discriminate]. pose proof (IHp _ _ _ _ SO1 F1 Q S1 E1 Hx Lx) as A1. destruct (GET _ _ _ A1) as (x1 & H1 & L1 & Q1 & _).
      eapply SEQ; [exact A1|exact H1|]. eapply IHq; eauto.
    + cbn in HS. eapply IHp; eauto.
Qed.

Theorem scoped_program_nested ls0 s0 i p ls s evs0 on0 :
  Forall not_late ls0 -> grun ls0 cfg0 = Some s0 -> thread_is s0 i on0 -> events_are s0 i evs0 ->
  (forall j l v, j <> i -> scopes_are s0 j l -> ~ In (true, v) l) ->
  scoped_only p -> steps_of i ls = fst (calls_of i p) -> Forall (minds_own_business i) ls -> grun ls s0 = Some s ->
  exists evs, events_are s i (evs0 ++ evs) /\ nested evs /\ thread_is s i on0 /\ g_process s = g_process s0.
Proof.
  intros F0 E0 T0 V0 Q0 SO S M E. destruct (reach _ _ F0 E0) as (a0 & _ & R0).
  assert (F1 : Forall not_late ls). { eapply Forall_impl; [|exact M]. intros [] H; cbn in *; auto. }
  destruct (run_rel _ _ _ _ F1 R0 E) as (a1 & A1 & R1). apply (rel_is _ _ _ _ R0) in T0. destruct T0 as (x0 & X0 & L0 & O0).
  apply (rel_events _ _ _ _ R0) in V0. destruct V0 as (x0' & X0' & V0). rewrite X0 in X0'. injection X0' as <-.
  assert (Q : quiet i a0). { intros j y v Hj Hy. apply (Q0 j); auto. apply (rel_scopes_are _ _ _ _ R0). eauto. }
  destruct (program_nested _ _ _ _ _ _ SO M Q S A1 X0 L0) as (P1 & _ & x1 & evs & X1 & L1 & O1 & C1 & V1 & N1). exists evs. split; [|split; [|split]]; auto.
  - apply (rel_events _ _ _ _ R1). exists x1. split; auto. congruence.
  - apply (rel_is _ _ _ _ R1). exists x1. repeat split; auto. congruence.
  - rewrite (r_process _ _ R1), (r_process _ _ R0). exact P1.
Qed.

(** ** Remote requests *)
Lemma handle_reply r s a' : rel (fst (c_handle r s)) a' -> areply a' (snd (c_handle r s)).
Proof.
  unfold c_handle. cbn [fst snd]. set (s' := match r with CQuery => s | CChange _ _ _ => _ end). intros R. split; [apply (r_process _ _ R)|]. split.
  - intros tid b. cbn [snd]. rewrite in_map_iff. split.
    + intros ((p & k) & E & Hin). cbn in E. injection E as <- <-. apply (in_find _ nat_order) in Hin; [|apply (r_ordered _ _ R)].
      destruct (r_keys _ _ R _ _ Hin) as (i & x & H1 & H2 & H3 & H4). exists i, x. repeat split; auto.
      destruct (rel_nth_a _ _ _ _ R H1) as (t & _ & (_ & HT)). destruct (HT H2) as (_ & HK). rewrite H3 in HK. destruct HK as (k' & K1 & _ & K3 & _).
      rewrite H4, Hin in K1. injection K1 as <-. symmetry. exact K3.
    + intros (i & x & H1 & H2 & H3 & H4 & H5). destruct (rel_nth_a _ _ _ _ R H1) as (t & _ & (_ & HT)). destruct (HT H2) as (_ & HK). rewrite H3 in HK. destruct HK as (k' & K1 & _ & K3 & _).
      exists (tid, k'). cbn. split; [unfold flag; congruence|]. apply (find_in _ nat_order). congruence.
  - cbn [snd]. rewrite map_map. cbn. apply (ordered_NoDup _ nat_order). apply (r_ordered _ _ R).
Qed.

Lemma store_all_frame ths : forall s, g_map (store_all ths s) = g_map s /\ g_threads (store_all ths s) = g_threads s /\ g_process (store_all ths s) = g_process s.
Proof.
  unfold store_all. induction ths as [|kv ths IH]; intros s; cbn; auto. destruct (IH (match mfind Nat.ltb (fst kv) (g_map s) with Some k => store_flag k (snd kv) s | None => s end)) as (H1 & H2 & H3).
  rewrite H1, H2, H3. destruct (mfind Nat.ltb (fst kv) (g_map s)); auto.
Qed.

Lemma reply_sound s a i b tid : rel s a -> In (tid, b) (snd (snd (c_handle CQuery s))) -> forall t, nth_error (g_threads s) i = Some t -> t_live t = true -> t_tid t = tid -> thread_is s i b.
Proof.
  intros R Hin t Ht Lt Et. destruct (handle_reply CQuery s a R) as (_ & H & _). apply H in Hin. destruct Hin as (j & y & Hy & Ly & Ky & Ey & Oy).
  destruct (rel_nth _ _ _ _ R Ht) as (x & Hx & HT). destruct (trel_seen _ _ _ _ HT) as (T1 & T2 & _). assert (j = i) by (apply (r_ids _ _ R j i y x); auto; congruence). subst j.
  apply (rel_is _ _ _ _ R). eauto.
Qed.

Lemma query_of r s : snd (c_handle CQuery (fst (c_handle r s))) = snd (c_handle r s).
Proof. reflexivity. Qed.

Lemma reply_keys r s : map fst (snd (snd (c_handle r s))) = map fst (g_map (fst (c_handle r s))).
Proof. unfold c_handle. cbn [fst snd]. now rewrite map_map. Qed.

Theorem remote_query ls s :
  Forall not_late ls -> grun ls cfg0 = Some s ->
  let '(s', reply) := c_handle CQuery s in
  s' = s /\ fst reply = g_process s /\ NoDup (map fst (snd reply)) /\
  (forall tid, In tid (map fst (snd reply)) <-> exists i t, nth_error (g_threads s) i = Some t /\ t_live t = true /\ t_cleanup t = true /\ t_tid t = tid) /\
  (forall i t b, nth_error (g_threads s) i = Some t -> t_live t = true -> In (t_tid t, b) (snd reply) -> thread_is s i b).
Proof.
  intros HF E. destruct (reach _ _ HF E) as (a & _ & R). destruct (c_handle CQuery s) as [s' reply] eqn:EH. pose proof (handle_reply CQuery s a R) as HR. rewrite EH in HR. cbn [snd] in HR.
  destruct HR as (H1 & H2 & H3). assert (s' = s) by (unfold c_handle in EH; congruence). subst s'. split; auto. split; [rewrite (r_process _ _ R); auto|]. split; auto. split.
  - intros tid. rewrite in_map_iff. split.
    + intros ((p & b) & E1 & Hin). cbn in E1. subst p. apply H2 in Hin. destruct Hin as (i & x & Hx & Lx & Kx & Ex & _). destruct (rel_nth_a _ _ _ _ R Hx) as (t & Ht & HT).
      destruct (trel_seen _ _ _ _ HT) as (T1 & T2 & _). destruct HT as (_ & HT). destruct (HT Lx) as (HC & _). exists i, t. repeat split; auto; congruence.
    + intros (i & t & Ht & Lt & Ct & Et). destruct (rel_nth _ _ _ _ R Ht) as (x & Hx & HT). destruct (trel_seen _ _ _ _ HT) as (T1 & T2 & _). destruct HT as (_ & HT).
      assert (Lx : a_live x = true) by congruence. destruct (HT Lx) as (HC & _). exists (tid, a_on x). split; auto. apply H2. exists i, x. repeat split; auto; congruence.
  - intros i t b Ht Lt Hin. pose proof (reply_sound s a i b (t_tid t) R) as H. rewrite EH in H. cbn [snd] in H. apply (H Hin t); auto.
Qed.

Theorem remote_change ls s sp p ths :
  Forall not_late ls -> grun ls cfg0 = Some s ->
  let before := snd (c_handle CQuery s) in
  let '(s', reply) := c_handle (CChange sp p ths) s in
  (fst reply = if sp then p else fst before) /\
  map fst (snd reply) = map fst (snd before) /\
  (forall tid b, In (tid, b) (snd before) -> In (tid, match asked ths tid with Some b' => b' | None => b end) (snd reply)) /\
  reply = snd (c_handle CQuery s') /\
  g_threads s' = g_threads s /\
  (forall i t b, nth_error (g_threads s) i = Some t -> thread_is s i b ->
     thread_is s' i (if t_cleanup t then match asked ths (t_tid t) with Some b' => b' | None => b end else b)) /\
  (exists ls', Forall not_late ls' /\ grun ls' cfg0 = Some s').
Proof.
  intros HF E before. destruct (reach _ _ HF E) as (a & _ & R).
  destruct (handle_rel (CChange sp p ths) _ _ R) as (a' & EA & R'). pose proof (handle_reply _ _ _ R') as RR. pose proof (handle_reply CQuery s a R) as RB.
  fold before in RB. pose proof (query_of (CChange sp p ths) s) as QO.
  assert (FR : g_map (fst (c_handle (CChange sp p ths) s)) = g_map s /\ g_threads (fst (c_handle (CChange sp p ths) s)) = g_threads s).
  { unfold c_handle. cbn [fst]. fold (store_all ths (if sp then store_process p s else s)). destruct (store_all_frame ths (if sp then store_process p s else s)) as (F1 & F2 & _). rewrite F1, F2. now destruct sp. }
  assert (KEYS : map fst (snd (snd (c_handle (CChange sp p ths) s))) = map fst (snd before)).
  { unfold before. rewrite !reply_keys. destruct FR as (F1 & _). rewrite F1. reflexivity. }
  assert (HS : grun (ls ++ [GRemote (CChange sp p ths)]) cfg0 = Some (fst (c_handle (CChange sp p ths) s))) by (rewrite grun_app, E; reflexivity).
  destruct (c_handle (CChange sp p ths) s) as [s' reply]. cbn [fst snd] in *. cbn in EA. injection EA as EA. destruct FR as (F1 & F2). destruct RR as (RR1 & RR2 & RR3). destruct RB as (RB1 & RB2 & RB3).
  split; [|split; [|split; [|split; [|split; [|split]]]]]; auto.
  - rewrite RR1, RB1, <- EA. reflexivity.
  - intros tid b Hin. apply RB2 in Hin. destruct Hin as (i & x & Hx & Lx & Kx & Ex & Ox). apply RR2. exists i, (remote_thread ths x). rewrite <- EA. cbn. rewrite nth_error_map, Hx. cbn.
    unfold remote_thread. rewrite Lx, Kx, Ex. cbn [andb]. destruct (asked ths tid); cbn; auto.
  - intros i t b Ht Hb. apply (rel_is _ _ _ _ R) in Hb. destruct Hb as (x & Hx & Lx & Ox). apply (rel_is _ _ _ _ R'). rewrite <- EA. cbn. rewrite nth_error_map, Hx. cbn. eexists. split; [reflexivity|].
    pose proof (r_threads _ _ R _ _ _ Ht Hx) as HT. destruct (trel_seen _ _ _ _ HT) as (T1 & _). destruct HT as (_ & HT). destruct (HT Lx) as (HC & _).
    unfold remote_thread. rewrite Lx, HC, T1. cbn [andb]. destruct (a_known x); cbn; auto. destruct (asked ths (a_tid x)); auto.
  - exists (ls ++ [GRemote (CChange sp p ths)]). split; auto. apply Forall_app. split; auto. repeat constructor.
Qed.

(** ** Process-wide scopes of several threads *)
Definition pscopes (a : acfg) (j : nat) : list bool :=
  match nth_error (a_threads a) j with Some x => map snd (filter fst (a_scopes x)) | None => [] end.
Definition aeffect (l : cfg_label) (a : acfg) : option (bool * nat) :=
  match l with
  | GScope i true _ => Some (true, i)
  | GUnscope i => match nth_error (a_threads a) i with Some t => match a_scopes t with (true, _) :: _ => Some (false, i) | _ => None end | None => None end
  | _ => None
  end.
Lemma effect_rel l s a : rel s a -> scope_effect l s = aeffect l a.
Proof.
  intros R. destruct l as [| | | | | |i| | |]; cbn; auto. destruct (nth_error (g_threads s) i) as [t|] eqn:Et.
  - destruct (rel_nth _ _ _ _ R Et) as (x & Hx & HT). destruct (trel_seen _ _ _ _ HT) as (_ & _ & T3 & _). now rewrite Hx, T3.
  - destruct (nth_error (a_threads a) i) as [x|] eqn:Ex; auto. destruct (rel_nth_a _ _ _ _ R Ex) as (t & Ht & _). congruence.
Qed.

Lemma pscopes_set a i x x' pr : nth_error (a_threads a) i = Some x ->
  forall j, pscopes {| a_process := pr; a_threads := set_nth i x' (a_threads a) |} j = if j =? i then map snd (filter fst (a_scopes x')) else pscopes a j.
Proof.
  intros Hx j. unfold pscopes. cbn. destruct (Nat.eqb_spec j i) as [->|Hn].
  - now rewrite set_nth_same by (apply nth_error_Some; congruence).
  - now rewrite set_nth_other.
Qed.

Lemma effect_step l a a' : scopes_only l -> astep l a = Some a' ->
  match aeffect l a with
  | None => a_process a' = a_process a /\ (forall j, pscopes a' j = pscopes a j)
  | Some (true, i) => forall j, pscopes a' j = if j =? i then a_process a :: pscopes a i else pscopes a j
  | Some (false, i) => exists prev r, pscopes a i = prev :: r /\ a_process a' = prev /\ (forall j, pscopes a' j = if j =? i then r else pscopes a j)
  end.
Proof.
  intros C H.
  assert (SAME : forall i x x' j, nth_error (a_threads a) i = Some x -> a_scopes x' = a_scopes x -> pscopes (a_set i x' a) j = pscopes a j).
  { intros i x x' j Hx E. unfold a_set. rewrite (pscopes_set a i x) by auto. destruct (Nat.eqb_spec j i) as [->|]; auto. unfold pscopes. now rewrite Hx, E. }
  destruct l as [tid|j p time room|j|j b|b|j isp b|j|r|j|j b]; cbn in C; try contradiction; cbn [aeffect]; cbn in H;
    try (destruct (nth_error (a_threads a) j) as [y|] eqn:Ey; [|discriminate]; destruct (a_live y) eqn:EL; [|discriminate]);
    try (injection H as <-; split; [reflexivity|]; intros k; eapply SAME; eauto; fail).
  - destruct (existsb _ _); [discriminate|]. injection H as <-. split; auto. intros k. unfold pscopes. cbn. destruct (Nat.lt_trichotomy k (length (a_threads a))) as [Hk|[->|Hk]].
    + now rewrite nth_error_app1.
    + rewrite nth_error_app2, Nat.sub_diag by lia. cbn. destruct (nth_error (a_threads a) (length (a_threads a))) eqn:E; auto. apply nth_error_lt in E. lia.
    + replace (nth_error (a_threads a) k) with (@None athr) by (symmetry; apply nth_error_None; lia). now replace (nth_error (a_threads a ++ _) k) with (@None athr) by (symmetry; apply nth_error_None; rewrite app_length; cbn; lia).
  - injection H as <-. destruct isp.
    + intros k. rewrite (pscopes_set a j y) by auto. cbn. destruct (k =? j); [unfold pscopes; rewrite Ey; reflexivity|reflexivity].
    + split; [reflexivity|]. intros k. unfold a_set. rewrite (pscopes_set a j y) by auto. cbn. destruct (Nat.eqb_spec k j) as [->|]; auto. unfold pscopes. now rewrite Ey.
  - destruct (a_scopes y) as [|[[|] prev] r] eqn:ES; [discriminate| |]; injection H as <-.
    + exists prev, (map snd (filter fst r)). split; [unfold pscopes; rewrite Ey, ES; reflexivity|]. split; auto. intros k. rewrite (pscopes_set a j y) by auto. reflexivity.
    + split; [reflexivity|]. intros k. unfold a_set. rewrite (pscopes_set a j y) by auto. cbn. destruct (Nat.eqb_spec k j) as [->|]; auto. unfold pscopes. rewrite Ey, ES. reflexivity.
  - destruct r as [|[|] p ths]; try contradiction; injection H as <-; [auto|]. split; auto. intros k. unfold pscopes. cbn. rewrite nth_error_map. destruct (nth_error (a_threads a) k) as [y|]; cbn; auto.
    unfold remote_thread. destruct (a_live y && a_known y); auto. destruct (asked ths (a_tid y)); auto.
Qed.

(** The open process-wide scopes of all threads, the last opened first, with the value each will put back. *)
Definition ghost_ok (gs : list (nat * bool)) (v0 : bool) (a : acfg) : Prop :=
  last (map snd gs) (a_process a) = v0 /\ forall j, pscopes a j = map snd (filter (fun e => fst e =? j) gs).

Lemma last_cons {A} (x d d' : A) l : last (x :: l) d = last (x :: l) d'.
Proof. revert x. induction l as [|y l IH]; intros x; [reflexivity|]. change (last (y :: l) d = last (y :: l) d'). apply IH. Qed.

Lemma lifo_restores : forall ls s a gs v0 st' s', Forall scopes_only ls -> rel s a -> ghost_ok gs v0 a ->
  last_opened_first (map fst gs) ls s = Some st' -> grun ls s = Some s' ->
  exists a' gs', rel s' a' /\ ghost_ok gs' v0 a' /\ map fst gs' = st'.
Proof.
  induction ls as [|l ls IH]; intros s a gs v0 st' s' HF R G HL HR; cbn [last_opened_first grun] in *.
  - injection HL as <-. injection HR as <-. eauto.
  - inversion HF as [|? ? H1 H2]; subst. destruct (gstep l s) as [s1|] eqn:E; [|discriminate].
    assert (NL : not_late l) by (destruct l; cbn in *; auto). destruct (step_rel _ _ _ _ NL R E) as (a1 & EA & R1). rewrite (effect_rel _ _ _ R) in HL.
    pose proof (effect_step _ _ _ H1 EA) as HE. destruct G as (G1 & G2). destruct (aeffect l a) as [[[|] i]|].
    + apply (IH s1 a1 ((i, a_process a) :: gs) v0); auto. split.
      * cbn [map snd]. destruct (map snd gs) as [|w gs'] eqn:Egs; [exact G1|]. change (last (w :: gs') (a_process a1) = v0). rewrite (last_cons _ _ (a_process a)). exact G1.
      * intros j. rewrite HE. cbn. rewrite (Nat.eqb_sym i j). destruct (Nat.eqb_spec j i) as [->|]; cbn; now rewrite G2.
    + destruct HE as (prev & r & E1 & E2 & E3). destruct gs as [|[j w] gs]; cbn [map fst] in HL; [discriminate|]. destruct (Nat.eqb_spec j i) as [->|]; [|discriminate].
      rewrite G2 in E1. cbn in E1. rewrite Nat.eqb_refl in E1. cbn in E1. injection E1 as -> E1. apply (IH s1 a1 gs v0); auto. split.
      * rewrite E2. cbn [map snd] in G1. destruct (map snd gs) as [|w gs'] eqn:Egs; [exact G1|]. change (last (w :: gs') (a_process a) = v0) in G1. rewrite (last_cons _ _ (a_process a)). exact G1.
      * intros k. rewrite E3. destruct (Nat.eqb_spec k i) as [->|Hn]; auto. rewrite G2. cbn. destruct (Nat.eqb_spec i k); [congruence|]. reflexivity.
    + destruct HE as (E1 & E2). apply (IH s1 a1 gs v0); auto. split; [now rewrite E1|]. intros j. now rewrite E2.
Qed.

Theorem lifo_scopes_restore ls0 s0 ls s :
  Forall not_late ls0 -> grun ls0 cfg0 = Some s0 -> (forall i l v, scopes_are s0 i l -> ~ In (true, v) l) ->
  Forall scopes_only ls -> grun ls s0 = Some s -> last_opened_first [] ls s0 = Some [] -> g_process s = g_process s0.
Proof.
  intros F0 E0 N F E L. destruct (reach _ _ F0 E0) as (a & _ & R).
  assert (G : ghost_ok [] (a_process a) a).
  { split; [reflexivity|]. intros j. unfold pscopes. destruct (nth_error (a_threads a) j) as [x|] eqn:Ex; auto. cbn.
    assert (HN : forall v, ~ In (true, v) (a_scopes x)) by (intros v; apply (N j); apply (rel_scopes_are _ _ _ _ R); eauto).
    clear -HN. induction (a_scopes x) as [|[[|] v] l IH]; cbn; auto.
    - exfalso. apply (HN v). left. reflexivity.
    - apply IH. intros v' Hv. apply (HN v'). right. auto. }
  destruct (lifo_restores _ _ _ [] _ _ _ F R G L E) as (a' & gs' & R' & (G1 & _) & E1). apply map_eq_nil in E1. subst gs'. rewrite (r_process _ _ R'), (r_process _ _ R). exact G1.
Qed.

(** ** Witnesses *)
Definition w_overlap : list cfg_label := [GScope 0 true false; GScope 1 true false; GUnscope 0; GUnscope 1].
Theorem overlapping_scopes :
  exists s0 s, grun [GStart 7; GStart 8] cfg0 = Some s0 /\ grun w_overlap s0 = Some s /\
   Forall scopes_only w_overlap /\ (forall i, i < 2 -> scopes_are s0 i [] /\ scopes_are s i []) /\ g_process s0 = true /\ g_process s = false.
Proof.
  do 2 eexists. split; [vm_compute; reflexivity|]. split; [vm_compute; reflexivity|]. split; [repeat constructor|]. split; [|split; reflexivity].
  intros [|[|i]] Hi; [split; eexists; split; reflexivity|split; eexists; split; reflexivity|lia].
Qed.

(** A scope whose begin event is dropped because the buffer is full, while its end event is not. *)
Definition w_overflow : list cfg_label := [GTrace 0 (TpEntry 5) 1 false; GTrace 0 (TpExit 5) 2 true].
Lemma not_nested_exit e : te_type e = SCOPE_EXIT -> ~ nested [e].
Proof.
  intros H N. inversion N; subst; [contradiction|]. destruct l; discriminate.
Qed.
Theorem overflow_not_nested :
  exists s0 s evs, grun [GStart 7] cfg0 = Some s0 /\ grun w_overflow s0 = Some s /\ thread_is s0 0 true /\ g_process s0 = true /\
   events_are s0 0 [] /\ events_are s 0 evs /\ ~ nested evs.
Proof.
  do 3 eexists. split; [vm_compute; reflexivity|]. split; [vm_compute; reflexivity|]. split; [eexists; split; [reflexivity|split; reflexivity]|]. split; [reflexivity|].
  split; [eexists; split; reflexivity|]. split; [eexists; split; reflexivity|]. now apply not_nested_exit.
Qed.

(** A thread-local object that is destroyed after the callback turns tracing off; the next thread with the same id inherits this. *)
Definition w_late : list cfg_label := [GStart 7; GTrace 0 (TpEntry 1) 1 true; GExit 0; GLateSet 0 false; GStart 7; GTrace 1 (TpEntry 1) 2 true].
Theorem late_inherited :
  exists s, grun w_late cfg0 = Some s /\ g_process s = true /\ thread_is s 1 false /\ events_are s 1 [] /\
   (forall b, ~ In (GSetThread 1 b) w_late) /\ (forall r, ~ In (GRemote r) w_late).
Proof.
  eexists. split; [vm_compute; reflexivity|]. split; [reflexivity|]. split; [eexists; split; [reflexivity|split; reflexivity]|]. split; [eexists; split; reflexivity|].
  split; intros x H; cbn in H; repeat (destruct H as [H|H]; [discriminate|]); exact H.
Qed.

(** ** The hypotheses can be met *)
Definition ex_prog : sprog :=
  SScope 10 1 9 (SSeq (STry (SConfig false false (SSeq (SScope 11 2 3 (SPoint (TpMark LThread 12) 2)) SThrow)) (SPoint (TpCount 13 7) 4))
                      (SSeq (SScope 14 5 6 SSkip) (SConfig true false (SScope 15 7 8 SSkip)))).
Definition ex_ls : list cfg_label :=
  match fst (calls_of 0 ex_prog) with
  | a :: b :: r => a :: GTrace 1 (TpEntry 20) 1 true :: b :: GScope 1 false false :: r ++ [GUnscope 1]
  | l => l
  end.
Example ex_nested :
  exists s0 s, grun [GStart 7; GStart 8] cfg0 = Some s0 /\ grun ex_ls s0 = Some s /\ scoped_only ex_prog /\ steps_of 0 ex_ls = fst (calls_of 0 ex_prog) /\
   Forall (minds_own_business 0) ex_ls /\ thread_is s0 0 true /\ events_are s0 0 [] /\ (forall j l v, j <> 0 -> scopes_are s0 j l -> ~ In (true, v) l) /\
   events_are s 0 (map (fun e => event_of (fst e) (snd e)) [(TpEntry 10, 1); (TpCount 13 7, 4); (TpEntry 14, 5); (TpExit 14, 6); (TpExit 10, 9)])%N.
Proof.
  do 2 eexists. split; [vm_compute; reflexivity|]. split; [vm_compute; reflexivity|]. split; [cbn; intuition|]. split; [reflexivity|].
  split; [unfold ex_ls; cbn; repeat (apply Forall_cons; [cbn; auto|]); apply Forall_nil|].
  split; [eexists; split; [reflexivity|split; reflexivity]|]. split; [eexists; split; reflexivity|]. split; [|eexists; split; reflexivity].
  intros j l v Hj (t & Ht & <-). destruct j as [|[|j]]; [lia| |]; cbn in Ht; [injection Ht as <-; intros []|destruct j; discriminate].
Qed.

Definition ex_lifo : list cfg_label := [GScope 0 true false; GScope 1 true true; GTrace 0 (TpEntry 1) 1 true; GUnscope 1; GScope 0 false true; GUnscope 0; GUnscope 0].
Example ex_lifo_ok :
  exists s0 s, grun [GStart 7; GStart 8] cfg0 = Some s0 /\ grun ex_lifo s0 = Some s /\ last_opened_first [] ex_lifo s0 = Some [] /\ Forall scopes_only ex_lifo /\ g_process s = true.
Proof. do 2 eexists. split; [vm_compute; reflexivity|]. split; [vm_compute; reflexivity|]. split; [reflexivity|]. split; [repeat constructor|reflexivity]. Qed.

Example ex_remote :
  exists s, grun [GStart 7; GStart 8; GTrace 0 (TpEntry 1) 1 true; GGetThread 1; GStart 9] cfg0 = Some s /\
   snd (c_handle (CChange false false [(8, false); (9, false); (55, false)]) s) = (true, [(7, true); (8, false)]) /\
   snd (c_handle (CChange true false []) s) = (false, [(7, true); (8, true)]).
Proof. eexists. split; [vm_compute; reflexivity|]. split; reflexivity. Qed.
