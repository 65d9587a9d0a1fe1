From Coq Require Import List Arith Bool Lia.
Import ListNotations.
From Verif Require Import UnixSystem_model UnixSystem_proofs Provider_model Provider_spec.

Section P.
Context {D : Type}.
Implicit Types (p : prov D) (s : src D) (d : D).

Lemma set_src_length i f p : length (p_srcs (set_src i f p)) = length (p_srcs p).
Proof. unfold set_src. destruct (nth_error (p_srcs p) i); [|reflexivity]. cbn. apply set_nth_length. Qed.
Lemma set_src_alive i f p : p_alive (set_src i f p) = p_alive p.
Proof. unfold set_src. destruct (nth_error (p_srcs p) i); reflexivity. Qed.
Lemma set_src_inc i f p : p_inc (set_src i f p) = p_inc p.
Proof. unfold set_src. destruct (nth_error (p_srcs p) i); reflexivity. Qed.
Lemma set_src_same i f p : nth_error (p_srcs (set_src i f p)) i = option_map f (nth_error (p_srcs p) i).
Proof.
  unfold set_src. destruct (nth_error (p_srcs p) i) as [s|] eqn:E; [|exact E].
  cbn. apply set_nth_same. apply nth_error_lt in E. exact E.
Qed.
Lemma set_src_other i j f p : i <> j -> nth_error (p_srcs (set_src i f p)) j = nth_error (p_srcs p) j.
Proof.
  intro H. unfold set_src. destruct (nth_error (p_srcs p) i) as [s|] eqn:E; [|reflexivity].
  cbn. apply set_nth_other. congruence.
Qed.

Lemma rec_recording k (l : list (src D)) i : In i (recording k l) <-> exists s, k <= i /\ nth_error l (i - k) = Some s /\ s_rec s = true.
Proof.
  revert k. induction l as [|s l IH]; intro k; cbn [recording].
  - split; [intros []|]. intros (s & _ & H & _). destruct (i - k); discriminate.
  - assert (Hs : (exists s0, S k <= i /\ nth_error l (i - S k) = Some s0 /\ s_rec s0 = true) <->
                 (exists s0, k < i /\ nth_error (s :: l) (i - k) = Some s0 /\ s_rec s0 = true)).
    { split; intros (s0 & Hk & Hn & Hr); exists s0; (split; [lia|]); split; try exact Hr.
      - replace (i - k) with (S (i - S k)) by lia. exact Hn.
      - replace (i - k) with (S (i - S k)) in Hn by lia. exact Hn. }
    destruct (s_rec s) eqn:Er.
    + cbn [In]. rewrite IH, Hs. split.
      * intros [->|(s0 & Hk & Hn & Hr)].
        -- exists s. rewrite Nat.sub_diag. repeat split; auto.
        -- exists s0. repeat split; auto; lia.
      * intros (s0 & Hk & Hn & Hr). destruct (Nat.eq_dec k i) as [->|Hne]; [left; reflexivity|].
        right. exists s0. repeat split; auto; lia.
    + rewrite IH, Hs. split; intros (s0 & Hk & Hn & Hr); exists s0; repeat split; auto; try lia.
      destruct (Nat.eq_dec k i) as [->|Hne]; [|lia]. rewrite Nat.sub_diag in Hn. injection Hn as <-. congruence.
Qed.
Lemma recording_nodup k (l : list (src D)) : NoDup (recording k l).
Proof.
  revert k. induction l as [|s l IH]; intro k; cbn [recording]; [constructor|].
  destruct (s_rec s); [|apply IH]. constructor; [|apply IH].
  intro H. apply rec_recording in H as (s0 & Hk & _). lia.
Qed.
Lemma in_snapshot p i : In i (snapshot p) <-> rec_of i p = true.
Proof.
  unfold snapshot. rewrite rec_recording. unfold rec_of. rewrite Nat.sub_0_r. split.
  - intros (s & _ & -> & H). exact H.
  - destruct (nth_error (p_srcs p) i) as [s|]; [|discriminate]. intro H. exists s. repeat split; auto. lia.
Qed.

Lemma rec_add i j d p : rec_of i (add j d p) = rec_of i p.
Proof.
  unfold rec_of, add. destruct (Nat.eq_dec j i) as [->|H].
  - rewrite set_src_same. destruct (nth_error (p_srcs p) i); reflexivity.
  - rewrite set_src_other by exact H. reflexivity.
Qed.
Lemma data_add i j d p : j < length (p_srcs p) -> data_of i (add j d p) = data_of i p ++ (if j =? i then [d] else []).
Proof.
  intro Hj. unfold data_of, add. destruct (Nat.eqb_spec j i) as [->|H].
  - rewrite set_src_same. destruct (nth_error (p_srcs p) i) eqn:E; [reflexivity|].
    apply nth_error_None in E. lia.
  - rewrite set_src_other by exact H. rewrite app_nil_r. reflexivity.
Qed.
Lemma fold_add (l : list nat) d p i :
  NoDup l -> (forall j, In j l -> j < length (p_srcs p)) ->
  let q := fold_left (fun q j => add j d q) l p in
  data_of i q = data_of i p ++ (if existsb (Nat.eqb i) l then [d] else []) /\ rec_of i q = rec_of i p
  /\ length (p_srcs q) = length (p_srcs p) /\ p_alive q = p_alive p.
Proof.
  revert p. induction l as [|j l IH]; intros p Hn Hl; cbn [fold_left existsb].
  - rewrite app_nil_r. auto.
  - inversion Hn as [|? ? Hnj Hn']; subst.
    destruct (IH (add j d p) Hn') as (Hd & Hr & Hlen & Ha).
    { intros k Hk. unfold add. rewrite set_src_length. apply Hl. right. exact Hk. }
    cbn zeta in *. rewrite Hd, Hr, Hlen, Ha, rec_add, data_add by (apply Hl; left; reflexivity).
    unfold add. rewrite set_src_length, set_src_alive. repeat split.
    rewrite <- app_assoc. f_equal. rewrite (Nat.eqb_sym j i).
    destruct (Nat.eqb_spec i j) as [->|Hij]; [|reflexivity]. cbn.
    destruct (existsb (Nat.eqb j) l) eqn:E; [|reflexivity].
    apply existsb_exists in E as (x & Hx & Hxe). apply Nat.eqb_eq in Hxe. subst. contradiction.
Qed.
Lemma incoming_spec d p i : p_alive p = true ->
  data_of i (incoming d p) = data_of i p ++ (if rec_of i p then [d] else []) /\ rec_of i (incoming d p) = rec_of i p
  /\ length (p_srcs (incoming d p)) = length (p_srcs p) /\ p_alive (incoming d p) = true.
Proof.
  intro Ha. unfold incoming. rewrite Ha.
  destruct (fold_add (snapshot p) d p i) as (Hd & Hr & Hl & Hq).
  - apply recording_nodup.
  - intros j Hj. apply in_snapshot in Hj. unfold rec_of in Hj.
    destruct (nth_error (p_srcs p) j) eqn:E; [|discriminate]. apply nth_error_lt in E. exact E.
  - cbn zeta in *. rewrite Hd, Hr, Hl, Hq. repeat split; auto. f_equal.
    destruct (rec_of i p) eqn:E.
    + apply in_snapshot in E. replace (existsb (Nat.eqb i) (snapshot p)) with true; [reflexivity|].
      symmetry. apply existsb_exists. exists i. split; [exact E|apply Nat.eqb_refl].
    + destruct (existsb (Nat.eqb i) (snapshot p)) eqn:E2; [|reflexivity].
      apply existsb_exists in E2 as (x & Hx & Hxe). apply Nat.eqb_eq in Hxe. subst x. apply in_snapshot in Hx. congruence.
Qed.

Lemma store_rec i j b p : j < length (p_srcs p) -> rec_of i (store j b p) = if j =? i then b else rec_of i p.
Proof.
  intro Hj. unfold rec_of, store. destruct (Nat.eqb_spec j i) as [->|H].
  - rewrite set_src_same. destruct (nth_error (p_srcs p) i) eqn:E; [reflexivity|]. apply nth_error_None in E. lia.
  - rewrite set_src_other by exact H. reflexivity.
Qed.
Lemma store_data i j b p : data_of i (store j b p) = data_of i p.
Proof.
  unfold data_of, store. destruct (Nat.eq_dec j i) as [->|H].
  - rewrite set_src_same. destruct (nth_error (p_srcs p) i); reflexivity.
  - rewrite set_src_other by exact H. reflexivity.
Qed.
Lemma clear_rec i j p : rec_of i (clear j p) = rec_of i p.
Proof.
  unfold rec_of, clear. destruct (Nat.eq_dec j i) as [->|H].
  - rewrite set_src_same. destruct (nth_error (p_srcs p) i); reflexivity.
  - rewrite set_src_other by exact H. reflexivity.
Qed.
Lemma clear_data i j p : data_of i (clear j p) = if j =? i then [] else data_of i p.
Proof.
  unfold data_of, clear. destruct (Nat.eqb_spec j i) as [->|H].
  - rewrite set_src_same. destruct (nth_error (p_srcs p) i); reflexivity.
  - rewrite set_src_other by exact H. reflexivity.
Qed.
Lemma release_rec i j p : rec_of i (release j p) = rec_of i p.
Proof.
  unfold rec_of, release. destruct (Nat.eq_dec j i) as [->|H].
  - rewrite set_src_same. destruct (nth_error (p_srcs p) i); reflexivity.
  - rewrite set_src_other by exact H. reflexivity.
Qed.
Lemma release_data i j p : data_of i (release j p) = data_of i p.
Proof.
  unfold data_of, release. destruct (Nat.eq_dec j i) as [->|H].
  - rewrite set_src_same. destruct (nth_error (p_srcs p) i); reflexivity.
  - rewrite set_src_other by exact H. reflexivity.
Qed.
Lemma make_rec i p : rec_of i (make_source p) = rec_of i p.
Proof.
  unfold rec_of, make_source. cbn. destruct (Nat.lt_ge_cases i (length (p_srcs p))) as [H|H].
  - rewrite nth_error_app1 by exact H. reflexivity.
  - rewrite nth_error_app2 by exact H. rewrite (proj2 (nth_error_None (p_srcs p) i) H).
    destruct (i - length (p_srcs p)) as [|[|k]]; reflexivity.
Qed.
Lemma make_data i p : data_of i (make_source p) = data_of i p.
Proof.
  unfold data_of, make_source. cbn. destruct (Nat.lt_ge_cases i (length (p_srcs p))) as [H|H].
  - rewrite nth_error_app1 by exact H. reflexivity.
  - rewrite nth_error_app2 by exact H. rewrite (proj2 (nth_error_None (p_srcs p) i) H).
    destruct (i - length (p_srcs p)) as [|[|k]]; reflexivity.
Qed.
Lemma store_rec' i j b p : rec_of i (store j b p) = if (j =? i) && (j <? length (p_srcs p)) then b else rec_of i p.
Proof.
  destruct (Nat.ltb_spec j (length (p_srcs p))) as [H|H].
  - rewrite store_rec by exact H. rewrite andb_true_r. reflexivity.
  - rewrite andb_false_r. unfold store, set_src. rewrite (proj2 (nth_error_None (p_srcs p) j) H). reflexivity.
Qed.

(** What each call does to what is known about source [i]. *)
Lemma op_effect o p : p_alive p = true -> o <> ODrop ->
  exists p' out, op_step o p = ODone p' out /\ p_alive p' = true
    /\ length (p_srcs p') = length (p_srcs p) + match o with OMake => 1 | _ => 0 end
    /\ (forall i : nat, out = match o with OFinish j => Some (data_of j p) | _ => None end)
    /\ (forall i, rec_of i p' = match o with
                   | OStart j => if (j =? i) && (j <? length (p_srcs p)) then true else rec_of i p
                   | OStop j | OFinish j => if (j =? i) && (j <? length (p_srcs p)) then false else rec_of i p
                   | _ => rec_of i p end)
    /\ (forall i, data_of i p' = match o with
                   | OStart j | OFinish j => if j =? i then [] else data_of i p
                   | OReceive d => data_of i p ++ (if rec_of i p then [d] else [])
                   | _ => data_of i p end).
Proof.
  intros Ha Ho. destruct o as [|j|j|j|d|j|]; cbn [op_step].
  - do 2 eexists. split; [reflexivity|]. split; [exact Ha|]. split; [cbn; rewrite app_length; reflexivity|].
    repeat split; intros; [apply make_rec|apply make_data].
  - do 2 eexists. split; [reflexivity|]. unfold start, store, clear. rewrite !set_src_alive, !set_src_length.
    split; [exact Ha|]. split; [lia|]. fold (@store D j true) (@clear D j) (@store D j false).
    split; [reflexivity|]. split; intro i.
    + rewrite store_rec', clear_rec, store_rec'. unfold clear, store. rewrite !set_src_length.
      destruct ((j =? i) && (j <? length (p_srcs p))); reflexivity.
    + rewrite store_data, clear_data, store_data. reflexivity.
  - do 2 eexists. split; [reflexivity|]. unfold stop. split; [unfold store; rewrite set_src_alive; exact Ha|].
    split; [unfold store; rewrite set_src_length; lia|]. split; [reflexivity|].
    split; intro i; [apply store_rec'|apply store_data].
  - unfold finish_src, stop. rewrite (set_src_alive j _ p : p_alive (store j false p) = _), Ha.
    do 2 eexists. split; [reflexivity|]. split; [unfold clear, store; rewrite !set_src_alive; exact Ha|].
    split; [unfold clear, store; rewrite !set_src_length; lia|]. split; [intros; rewrite store_data; reflexivity|].
    split; intro i; [rewrite clear_rec; apply store_rec'|rewrite clear_data, store_data; reflexivity].
  - do 2 eexists. split; [reflexivity|].
    destruct (incoming_spec d p 0 Ha) as (_ & _ & Hl & Ha'). split; [exact Ha'|]. split; [lia|]. split; [reflexivity|].
    split; intro i; destruct (incoming_spec d p i Ha) as (Hd & Hr & _ & _); assumption.
  - do 2 eexists. split; [reflexivity|]. split; [unfold release; rewrite set_src_alive; exact Ha|].
    split; [unfold release; rewrite set_src_length; lia|]. split; [reflexivity|].
    split; intro i; [apply release_rec|apply release_data].
  - contradiction.
Qed.

Lemma op_run_app h1 h2 p : op_run (h1 ++ h2) p = match op_run h1 p with Some q => op_run h2 q | None => None end.
Proof. revert p. induction h1 as [|o h1 IH]; intro p; cbn; [reflexivity|]. destruct (op_step o p); [reflexivity|]. apply IH. Qed.

Lemma no_drop_cons (o : op D) h : no_drop (o :: h) -> o <> ODrop /\ no_drop h.
Proof. unfold no_drop. cbn. intuition. Qed.

Lemma op_run_ok h p : p_alive p = true -> no_drop h ->
  exists q, op_run h p = Some q /\ p_alive q = true /\ length (p_srcs q) = length (p_srcs p) + made h.
Proof.
  revert p. induction h as [|o h IH]; intros p Ha Hn.
  - exists p. cbn. repeat split; auto.
  - apply no_drop_cons in Hn as [Ho Hn]. destruct (op_effect o p Ha Ho) as (p' & out & E & Ha' & Hl & _).
    destruct (IH p' Ha' Hn) as (q & Hq & Hqa & Hql). exists q. cbn [op_run]. rewrite E. split; [exact Hq|]. split; [exact Hqa|].
    rewrite Hql, Hl. destruct o; cbn [made]; lia.
Qed.

(** While a source is neither started nor finished. *)
Lemma quiet_run i h p q : p_alive p = true -> no_drop h -> no_start_or_finish i h -> i < length (p_srcs p) -> op_run h p = Some q ->
  data_of i q = data_of i p ++ (if rec_of i p then received_in (until_stop i h) else []).
Proof.
  unfold no_start_or_finish. revert p. induction h as [|o h IH]; intros p Ha Hn Hs Hi Hq.
  - cbn in Hq. injection Hq as <-. cbn. destruct (rec_of i p); rewrite app_nil_r; reflexivity.
  - apply no_drop_cons in Hn as [Ho Hn]. cbn [forallb] in Hs. apply andb_true_iff in Hs as [Hc Hs].
    destruct (op_effect o p Ha Ho) as (p' & out & E & Ha' & Hl & _ & Hr & Hd). specialize (Hr i). specialize (Hd i).
    cbn [op_run] in Hq. rewrite E in Hq.
    rewrite (IH p' Ha' Hn Hs ltac:(lia) Hq). clear IH Hq.
    destruct o as [|j|j|j|d|j|]; cbn [concerns negb] in Hc; cbn [until_stop received_in] in *.
    + rewrite Hr, Hd. reflexivity.
    + apply negb_true_iff in Hc. rewrite Hc in Hr, Hd. cbn in Hr. rewrite Hr, Hd. reflexivity.
    + rewrite Hd, Hr. destruct (Nat.eqb_spec j i) as [->|Hne]; cbn [andb received_in].
      * rewrite (proj2 (Nat.ltb_lt i _) Hi). rewrite app_nil_r. destruct (rec_of i p); rewrite app_nil_r; reflexivity.
      * reflexivity.
    + apply negb_true_iff in Hc. rewrite Hc in Hr, Hd. cbn in Hr. rewrite Hr, Hd. reflexivity.
    + rewrite Hr, Hd, <- app_assoc. destruct (rec_of i p); reflexivity.
    + rewrite Hr, Hd. reflexivity.
    + contradiction.
Qed.

(** C29: a finished interval holds exactly what was received between its start and its stop. *)
Lemma interval_lemma (h1 h2 : list (op D)) i :
  no_drop (h1 ++ h2) -> i < made h1 -> no_start_or_finish i h2 ->
  exists p p', op_run (h1 ++ OStart i :: h2) prov0 = Some p
    /\ op_step (OFinish i) p = ODone p' (Some (received_in (until_stop i h2))).
Proof.
  intros Hn Hi Hs.
  assert (Hn1 : no_drop h1) by (intro H; apply Hn, in_or_app; auto).
  assert (Hn2 : no_drop h2) by (intro H; apply Hn, in_or_app; auto).
  destruct (op_run_ok h1 prov0 eq_refl Hn1) as (p1 & E1 & Ha1 & Hl1). cbn in Hl1.
  destruct (op_effect (OStart i) p1 Ha1) as (p2 & out & E2 & Ha2 & Hl2 & _ & Hr2 & Hd2); [discriminate|].
  destruct (op_run_ok h2 p2 Ha2 Hn2) as (p3 & E3 & Ha3 & Hl3).
  destruct (op_effect (OFinish i) p3 Ha3) as (p4 & out4 & E4 & _ & _ & Ho4 & _); [discriminate|].
  exists p3, p4. split.
  - rewrite op_run_app, E1. cbn [op_run]. rewrite E2. exact E3.
  - rewrite E4. rewrite (Ho4 0). rewrite (quiet_run i h2 p2 p3 Ha2 Hn2 Hs ltac:(lia) E3).
    rewrite (Hd2 i), (Hr2 i), Nat.eqb_refl, (proj2 (Nat.ltb_lt i _)) by lia. reflexivity.
Qed.

(** A source that was not started since it was made, or since it was last finished, has nothing. *)
Lemma idle_lemma (h1 h2 : list (op D)) i :
  no_drop (h1 ++ h2) -> i < made h1 -> no_start_or_finish i h2 ->
  exists p p', op_run (h1 ++ OFinish i :: h2) prov0 = Some p /\ op_step (OFinish i) p = ODone p' (Some []).
Proof.
  intros Hn Hi Hs.
  assert (Hn1 : no_drop h1) by (intro H; apply Hn, in_or_app; auto).
  assert (Hn2 : no_drop h2) by (intro H; apply Hn, in_or_app; auto).
  destruct (op_run_ok h1 prov0 eq_refl Hn1) as (p1 & E1 & Ha1 & Hl1). cbn in Hl1.
  destruct (op_effect (OFinish i) p1 Ha1) as (p2 & out & E2 & Ha2 & Hl2 & _ & Hr2 & Hd2); [discriminate|].
  destruct (op_run_ok h2 p2 Ha2 Hn2) as (p3 & E3 & Ha3 & Hl3).
  destruct (op_effect (OFinish i) p3 Ha3) as (p4 & out4 & E4 & _ & _ & Ho4 & _); [discriminate|].
  exists p3, p4. split.
  - rewrite op_run_app, E1. cbn [op_run]. rewrite E2. exact E3.
  - rewrite E4. rewrite (Ho4 0). rewrite (quiet_run i h2 p2 p3 Ha2 Hn2 Hs ltac:(lia) E3).
    rewrite (Hd2 i), (Hr2 i), Nat.eqb_refl, (proj2 (Nat.ltb_lt i _)) by lia. reflexivity.
Qed.
Lemma no_source_data i p : length (p_srcs p) <= i -> data_of i p = [] /\ rec_of i p = false.
Proof. intro H. unfold data_of, rec_of. rewrite (proj2 (nth_error_None _ _) H). auto. Qed.
Lemma fresh_run i h : no_drop h -> no_start_or_finish i h -> forall p q, p_alive p = true ->
  data_of i p = [] -> rec_of i p = false -> op_run h p = Some q -> data_of i q = [] /\ rec_of i q = false.
Proof.
  unfold no_start_or_finish. induction h as [|o h IH]; intros Hn Hs p q Ha Hd Hr Hq.
  - cbn in Hq. injection Hq as <-. auto.
  - apply no_drop_cons in Hn as [Ho Hn]. cbn [forallb] in Hs. apply andb_true_iff in Hs as [Hc Hs].
    destruct (op_effect o p Ha Ho) as (p' & out & E & Ha' & Hl & _ & Hr' & Hd'). specialize (Hr' i). specialize (Hd' i).
    cbn [op_run] in Hq. rewrite E in Hq. apply (IH Hn Hs p' q Ha'); auto; [rewrite Hd'|rewrite Hr'];
      destruct o as [|j|j|j|d|j|]; cbn in Hc; try apply negb_true_iff in Hc; rewrite ?Hc; cbn; auto; try contradiction; try (rewrite Hr, Hd; reflexivity);
      match goal with |- (if ?b then _ else _) = _ => destruct b; auto end.
Qed.
Lemma fresh_lemma (h : list (op D)) i :
  no_drop h -> no_start_or_finish i h ->
  exists p p', op_run h prov0 = Some p /\ op_step (OFinish i) p = ODone p' (Some []).
Proof.
  intros Hn Hs. destruct (op_run_ok h prov0 eq_refl Hn) as (p & E & Ha & Hl).
  destruct (op_effect (OFinish i) p Ha) as (p4 & out4 & E4 & _ & _ & Ho4 & _); [discriminate|].
  exists p, p4. split; [exact E|]. rewrite E4, (Ho4 0).
  destruct (no_source_data i prov0) as [Hd Hr]; [cbn; lia|].
  destruct (fresh_run i h Hn Hs prov0 p eq_refl Hd Hr E) as [-> _]. reflexivity.
Qed.

(** ** Interleaved *)
Lemma lrun_app (h1 h2 : list (label D)) p : lrun (h1 ++ h2) p = match lrun h1 p with Some q => lrun h2 q | None => None end.
Proof. revert p. induction h1 as [|l h1 IH]; intro p; cbn; [reflexivity|]. destruct (lstep l p); [apply IH|reflexivity]. Qed.
Lemma on_app i w (h1 h2 : list (label D)) : on i w (h1 ++ h2) = on i (on i w h1) h2.
Proof. revert w. induction h1 as [|[] h1 IH]; intro w; cbn; auto. Qed.
Lemma begun_app (h1 h2 : list (label D)) : begun (h1 ++ h2) = begun h1 ++ begun h2.
Proof. induction h1 as [|[] h1 IH]; cbn; auto. rewrite IH. reflexivity. Qed.
Lemma handed_app i a (h1 h2 : list (label D)) : handed i a (h1 ++ h2) = handed i (handed i a h1) h2.
Proof. revert a. induction h1 as [|[] h1 IH]; intro a; cbn; auto. Qed.
Lemma lmade_app (h1 h2 : list (label D)) : lmade (h1 ++ h2) = lmade h1 + lmade h2.
Proof. induction h1 as [|[] h1 IH]; cbn; auto. Qed.

Definition was_on (i r : nat) (h : list (label D)) : Prop :=
  exists h1 h2, h = h1 ++ h2 /\ on i false h1 = true /\ i < lmade h1 /\ r < length (begun h1).
Lemma was_on_snoc i r (h : list (label D)) l : was_on i r h -> was_on i r (h ++ [l]).
Proof. intros (h1 & h2 & -> & H). exists h1, (h2 ++ [l]). rewrite app_assoc. auto. Qed.
Lemma during_snoc i r (h : list (label D)) l : recording_during i r h -> recording_during i r (h ++ [l]).
Proof.
  intros (h1 & h2 & -> & H1 & H2 & H3 & H4). exists h1, (h2 ++ [l]). rewrite app_assoc. repeat split; auto. apply in_or_app. auto.
Qed.

Record linv (h : list (label D)) p : Prop := {
  li_made : length (p_srcs p) = lmade h;
  li_on : forall i, rec_of i p = on i false h;
  li_begun : map c_data (p_inc p) = begun h;
  li_data : forall i, Forall2 (fun r d => nth_error (begun h) r = Some d) (handed i [] h) (data_of i p);
  li_call : forall r c, nth_error (p_inc p) r = Some c ->
    NoDup (c_look c ++ c_todo c) /\ (forall i, In i (c_look c ++ c_todo c) -> i < lmade h /\ ~ In r (handed i [] h))
    /\ (forall i, In i (c_todo c) -> was_on i r h);
  li_handed : forall i r, In r (handed i [] h) -> recording_during i r h;
  li_nodup : forall i, NoDup (handed i [] h) }.

Lemma Forall2_mono {A B} (P Q : A -> B -> Prop) l m : (forall a b, P a b -> Q a b) -> Forall2 P l m -> Forall2 Q l m.
Proof. intros H F. induction F; constructor; auto. Qed.

Lemma rec_with_inc i p l : rec_of i (with_inc p l) = rec_of i p. Proof. reflexivity. Qed.
Lemma data_with_inc i p l : data_of i (with_inc p l) = data_of i p. Proof. reflexivity. Qed.
Lemma map_set_nth_same (l : list (call D)) r c c' : nth_error l r = Some c -> c_data c' = c_data c ->
  map c_data (set_nth r c' l) = map c_data l.
Proof.
  revert r. induction l as [|x l IH]; intros [|r]; cbn; intros H E; try discriminate.
  - injection H as ->. rewrite E. reflexivity.
  - rewrite (IH r H E). reflexivity.
Qed.
Lemma in_handed_same i j r (h : list (label D)) l : match l with LAdd r' k => r' <> r \/ k <> i | _ => True end ->
  j = i -> In r (handed j [] (h ++ [l])) -> In r (handed i [] h).
Proof.
  intros Hl -> H. rewrite handed_app in H. destruct l as [|k b|k|d|k|r' k]; cbn in H; auto.
  - destruct (k =? i); [destruct H|exact H].
  - destruct (Nat.eqb_spec k i) as [->|Hk]; [|exact H]. apply in_app_or in H as [H|[H|[]]]; [exact H|]. destruct Hl; congruence.
Qed.

Lemma linv_step h l p p' : linv h p -> lstep l p = Some p' -> linv (h ++ [l]) p'.
Proof.
  intros I E. destruct I as [Im Io Ib Id Ic Ih In_].
  assert (Hmono : forall r d, nth_error (begun h) r = Some d -> nth_error (begun (h ++ [l])) r = Some d).
  { intros r d H. rewrite begun_app. rewrite nth_error_app1; [exact H|]. apply nth_error_lt in H. exact H. }
  (* the calls, when no call changes and nothing is handed over *)
  assert (Hcalls : (forall r i, l <> LAdd r i) -> forall r c, nth_error (p_inc p) r = Some c ->
    NoDup (c_look c ++ c_todo c) /\ (forall i, In i (c_look c ++ c_todo c) -> i < lmade (h ++ [l]) /\ ~ In r (handed i [] (h ++ [l])))
    /\ (forall i, In i (c_todo c) -> was_on i r (h ++ [l]))).
  { intros Hl r c Hc. destruct (Ic r c Hc) as (H1 & H2 & H3). repeat split; auto.
    - intros. rewrite lmade_app. destruct (H2 i H). lia.
    - intros Hin. apply (in_handed_same i i) in Hin; [|destruct l; auto; exfalso; eapply Hl; reflexivity|reflexivity].
      destruct (H2 i H). contradiction.
    - intros. apply was_on_snoc. auto. }
  destruct l as [|k b|k|d|r|r k]; cbn [lstep] in E.
  - injection E as <-. split.
    + cbn. rewrite app_length, lmade_app, Im. reflexivity.
    + intro i. rewrite make_rec, on_app. apply Io.
    + cbn. rewrite begun_app, app_nil_r. exact Ib.
    + intro i. rewrite make_data, handed_app. cbn. eapply Forall2_mono; [|apply Id]. auto.
    + intros r c Hc. apply Hcalls; [discriminate|exact Hc].
    + intros i r H. rewrite handed_app in H. apply during_snoc, Ih, H.
    + intro i. rewrite handed_app. apply In_.
  - destruct (Nat.ltb_spec k (length (p_srcs p))) as [Hk|Hk]; [|discriminate]. injection E as <-. split.
    + unfold store. rewrite set_src_length, lmade_app, Im. cbn. lia.
    + intro i. rewrite store_rec by exact Hk. rewrite on_app. cbn. destruct (k =? i); [reflexivity|apply Io].
    + unfold store. rewrite set_src_inc, begun_app, app_nil_r. exact Ib.
    + intro i. rewrite store_data, handed_app. cbn. eapply Forall2_mono; [|apply Id]. auto.
    + intros r c Hc. unfold store in Hc. rewrite set_src_inc in Hc. apply Hcalls; [discriminate|exact Hc].
    + intros i r H. rewrite handed_app in H. apply during_snoc, Ih, H.
    + intro i. rewrite handed_app. apply In_.
  - destruct (Nat.ltb_spec k (length (p_srcs p))) as [Hk|Hk]; [|discriminate]. injection E as <-. split.
    + unfold clear. rewrite set_src_length, lmade_app, Im. cbn. lia.
    + intro i. rewrite clear_rec, on_app. apply Io.
    + unfold clear. rewrite set_src_inc, begun_app, app_nil_r. exact Ib.
    + intro i. rewrite clear_data, handed_app. cbn. destruct (k =? i); [constructor|]. eapply Forall2_mono; [|apply Id]. auto.
    + intros r c Hc. unfold clear in Hc. rewrite set_src_inc in Hc. apply Hcalls; [discriminate|exact Hc].
    + intros i r H. rewrite handed_app in H. cbn in H. destruct (k =? i); [destruct H|]. apply during_snoc, Ih, H.
    + intro i. rewrite handed_app. cbn. destruct (k =? i); [constructor|apply In_].
  - injection E as <-. split.
    + cbn. rewrite lmade_app, Im. cbn. lia.
    + intro i. rewrite rec_with_inc, on_app. apply Io.
    + cbn. rewrite map_app, begun_app, Ib. reflexivity.
    + intro i. rewrite data_with_inc, handed_app. cbn. eapply Forall2_mono; [|apply Id]. auto.
    + intros r c Hc. cbn in Hc. destruct (Nat.lt_ge_cases r (length (p_inc p))) as [Hr|Hr].
      * rewrite nth_error_app1 in Hc by exact Hr. apply Hcalls; [discriminate|exact Hc].
      * rewrite nth_error_app2 in Hc by exact Hr. destruct (r - length (p_inc p)) as [|[|z]] eqn:Ez; cbn in Hc; try discriminate.
        injection Hc as <-. cbn [c_look c_todo]. rewrite app_nil_r. split; [apply seq_NoDup|]. split; [|intros i []].
        intros i Hi. apply in_seq in Hi. rewrite lmade_app. split; [lia|]. rewrite handed_app. cbn.
        intro H. apply Ih in H as (h1 & h2 & Eh & _ & _ & Hlt & _).
        assert (Hlen : length (begun h) = length (p_inc p)) by (rewrite <- Ib; apply map_length).
        rewrite Eh, begun_app, app_length in Hlen. lia.
    + intros i r H. rewrite handed_app in H. apply during_snoc, Ih, H.
    + intro i. rewrite handed_app. apply In_.
  - destruct (nth_error (p_inc p) r) as [c|] eqn:Ec; [|discriminate].
    destruct (c_look c) as [|k lk] eqn:El; [discriminate|]. injection E as <-.
    assert (Hlen : length (begun h) = length (p_inc p)) by (rewrite <- Ib; apply map_length).
    assert (Hr : r < length (p_inc p)) by (apply nth_error_lt in Ec; exact Ec).
    split.
    + cbn. rewrite lmade_app, Im. cbn. lia.
    + intro i. rewrite rec_with_inc, on_app. apply Io.
    + cbn. rewrite begun_app, app_nil_r. rewrite (map_set_nth_same _ _ c) by (auto). exact Ib.
    + intro i. rewrite data_with_inc, handed_app. cbn. eapply Forall2_mono; [|apply Id]. auto.
    + intros r' c' Hc. cbn in Hc. destruct (Nat.eq_dec r r') as [->|Hne].
      * rewrite set_nth_same in Hc by exact Hr. injection Hc as <-. cbn [c_look c_todo].
        destruct (Hcalls ltac:(discriminate) r' c Ec) as (H1 & H2 & H3). rewrite El in H1, H2.
        cbn [app] in H1, H2. inversion H1 as [|? ? Hk1 Hk2]; subst.
        destruct (rec_of k p) eqn:Er.
        -- split; [|split].
           ++ apply NoDup_Add with (a := k) (l := lk ++ c_todo c); [apply Add_app|]. split; assumption.
           ++ intros i Hi. apply H2. apply in_app_or in Hi as [Hi|[->|Hi]]; [right; apply in_or_app; auto|left; reflexivity|right; apply in_or_app; auto].
           ++ intros i [->|Hi]; [|apply H3; exact Hi].
              apply was_on_snoc. exists h, []. rewrite app_nil_r. split; [reflexivity|].
              split; [rewrite <- Io; exact Er|]. split; [|lia].
              destruct (Ic r' c Ec) as (_ & H4 & _). rewrite El in H4. apply (H4 i). left. reflexivity.
        -- split; [exact Hk2|]. split; [|exact H3]. intros i Hi. apply H2. right. exact Hi.
      * rewrite set_nth_other in Hc by congruence. apply Hcalls; [discriminate|exact Hc].
    + intros i r' H. rewrite handed_app in H. apply during_snoc, Ih, H.
    + intro i. rewrite handed_app. apply In_.
  - destruct (nth_error (p_inc p) r) as [c|] eqn:Ec; [|discriminate].
    destruct (c_look c) as [|k0 lk] eqn:El; [|discriminate].
    destruct (existsb (Nat.eqb k) (c_todo c)) eqn:Ek; [|discriminate]. injection E as <-.
    assert (Hlen : length (begun h) = length (p_inc p)) by (rewrite <- Ib; apply map_length).
    assert (Hr : r < length (p_inc p)) by (apply nth_error_lt in Ec; exact Ec).
    apply existsb_exists in Ek as (x & Hx & Hxe). apply Nat.eqb_eq in Hxe. subst x.
    destruct (Ic r c Ec) as (C1 & C2 & C3). rewrite El in C1, C2. cbn [app] in C1, C2.
    destruct (C2 k Hx) as [Hk Hnk].
    split.
    + unfold add. rewrite set_src_length. cbn. rewrite lmade_app, Im. cbn. lia.
    + intro i. rewrite rec_add, rec_with_inc, on_app. apply Io.
    + unfold add. rewrite set_src_inc. cbn. rewrite begun_app, app_nil_r. rewrite (map_set_nth_same _ _ c) by auto. exact Ib.
    + intro i. rewrite data_add by (cbn; lia). rewrite data_with_inc, handed_app. cbn.
      assert (F : Forall2 (fun r d => nth_error (begun (h ++ [LAdd r k])) r = Some d) (handed i [] h) (data_of i p)).
      { eapply Forall2_mono; [|apply Id]. intros r0 d0 H0. rewrite begun_app, app_nil_r. exact H0. }
      destruct (k =? i).
      * apply Forall2_app; [|repeat constructor].
        -- eapply Forall2_mono; [|apply Id]. auto.
        -- apply Hmono. rewrite <- Ib, nth_error_map, Ec. reflexivity.
      * rewrite app_nil_r. eapply Forall2_mono; [|apply Id]. auto.
    + intros r' c' Hc. unfold add in Hc. rewrite set_src_inc in Hc. cbn in Hc. destruct (Nat.eq_dec r r') as [->|Hne].
      * rewrite set_nth_same in Hc by exact Hr. injection Hc as <-. cbn [c_look c_todo app].
        split; [apply NoDup_filter; exact C1|]. split.
        -- intros i Hi. apply filter_In in Hi as [Hi Hik]. apply negb_true_iff, Nat.eqb_neq in Hik.
           destruct (C2 i Hi) as [Hm Hni]. rewrite lmade_app. split; [lia|].
           intro Hin. apply (in_handed_same i i) in Hin; [contradiction|right; congruence|reflexivity].
        -- intros i Hi. apply filter_In in Hi as [Hi _]. apply was_on_snoc, C3, Hi.
      * rewrite set_nth_other in Hc by congruence. destruct (Ic r' c' Hc) as (H1 & H2 & H3). split; [exact H1|]. split.
        -- intros i Hi. destruct (H2 i Hi). rewrite lmade_app. split; [lia|]. intro Hin.
           apply (in_handed_same i i) in Hin; [contradiction|left; congruence|reflexivity].
        -- intros i Hi. apply was_on_snoc, H3, Hi.
    + intros i r' H. rewrite handed_app in H. cbn in H. destruct (Nat.eqb_spec k i) as [->|Hki]; [|apply during_snoc, Ih, H].
      apply in_app_or in H as [H|[<-|[]]]; [apply during_snoc, Ih, H|].
      destruct (C3 i Hx) as (h1 & h2 & -> & H1 & H2 & H3). exists h1, (h2 ++ [LAdd r i]). rewrite app_assoc.
      repeat split; auto. apply in_or_app. right. left. reflexivity.
    + intro i. rewrite handed_app. cbn. destruct (Nat.eqb_spec k i) as [->|Hki]; [|apply In_].
      apply NoDup_snoc; [apply In_|exact Hnk].
Qed.
Lemma linv0 : linv [] prov0.
Proof.
  assert (H : forall i, nth_error (@nil (src D)) i = None) by (intros []; reflexivity).
  split; cbn.
  - reflexivity.
  - intro i. unfold rec_of. cbn. rewrite H. reflexivity.
  - reflexivity.
  - intro i. unfold data_of. cbn. rewrite H. constructor.
  - intros r c Hc. destruct r; discriminate.
  - intros i r [].
  - intros i. constructor.
Qed.
Lemma linv_run h p : lrun h prov0 = Some p -> linv h p.
Proof.
  revert p. induction h as [|l h IH] using rev_ind; intros p H.
  - cbn in H. injection H as <-. apply linv0.
  - rewrite lrun_app in H. destruct (lrun h prov0) as [q|]; [|discriminate]. cbn in H.
    destruct (lstep l q) eqn:E; [|discriminate]. injection H as <-. eapply linv_step; eauto.
Qed.

(** Whatever the interleaving: a source holds the data of the calls that handed it over since it was last cleared, in that order,
    each once, and each of these calls found it recording while it ran. *)
Lemma delivered_lemma (h : list (label D)) p i : lrun h prov0 = Some p ->
  Forall2 (fun r d => nth_error (begun h) r = Some d) (handed i [] h) (data_of i p)
  /\ NoDup (handed i [] h) /\ forall r, In r (handed i [] h) -> recording_during i r h.
Proof. intro H. apply linv_run in H. destruct H. auto. Qed.

(** A call that runs its course while the source is recording throughout hands its data over. *)
Lemma complete_handed (h1 h2 : list (label D)) d p i :
  lrun (h1 ++ LBegin d :: h2) prov0 = Some p -> on i false h1 = true -> i < lmade h1 ->
  (forall b, ~ In (LStore i b) h2) -> ~ In (LClear i) h2 ->
  over (length (begun h1)) p ->
  In (length (begun h1)) (handed i [] (h1 ++ LBegin d :: h2)).
Proof.
  intros H Hon Hm Hst Hcl (c & Hc & Hl & Ht).
  assert (G : forall q, lrun (h1 ++ LBegin d :: h2) prov0 = Some q ->
    exists c, nth_error (p_inc q) (length (begun h1)) = Some c /\
      (In i (c_look c) \/ In i (c_todo c) \/ In (length (begun h1)) (handed i [] (h1 ++ LBegin d :: h2)))).
  2:{ destruct (G p H) as (c' & Hc' & G'). rewrite Hc in Hc'. injection Hc' as <-. rewrite Hl, Ht in G'.
      destruct G' as [[]|[[]|G']]. exact G'. }
  clear c Hc Hl Ht H p. induction h2 as [|l h2 IH] using rev_ind; intros q H.
  - rewrite lrun_app in H. destruct (lrun h1 prov0) as [q1|] eqn:E1; [|discriminate]. cbn in H. injection H as <-.
    apply linv_run in E1. destruct E1 as [Im _ Ib _ _ _ _].
    assert (Hlen : length (begun h1) = length (p_inc q1)) by (rewrite <- Ib; apply map_length).
    cbn. rewrite nth_error_app2 by lia. replace (length (begun h1) - length (p_inc q1)) with 0 by lia. eexists. split; [reflexivity|].
    left. cbn. apply in_seq. lia.
  - rewrite app_comm_cons, app_assoc in H |- *. rewrite lrun_app in H.
    destruct (lrun (h1 ++ LBegin d :: h2) prov0) as [q1|] eqn:E1; [|discriminate].
    destruct IH with (q := q1) as (c & Hc & HI); [intros b Hb; apply (Hst b), in_or_app; auto|intro Hb; apply Hcl, in_or_app; auto|reflexivity|].
    set (r0 := length (begun h1)) in *.
    assert (Hlast : forall b, l <> LStore i b) by (intros b ->; apply (Hst b), in_or_app; right; left; reflexivity).
    assert (Hlc : l <> LClear i) by (intros ->; apply Hcl, in_or_app; right; left; reflexivity).
    assert (Hon2 : rec_of i q1 = true).
    { pose proof (linv_run _ _ E1) as I. rewrite (li_on _ _ I). rewrite on_app. cbn. rewrite Hon.
      clear - Hst. assert (Hst' : forall b, ~ In (LStore i b) h2) by (intros b Hb; apply (Hst b), in_or_app; auto). clear Hst.
      induction h2 as [|l' h2 IH]; [reflexivity|].
      assert (IH' : on i true h2 = true) by (apply IH; intros b Hb; apply (Hst' b); right; exact Hb).
      destruct l' as [|j b|j|d'|j|j j2]; cbn; auto.
      destruct (Nat.eqb_spec j i) as [->|Hj]; [|exact IH']. exfalso. apply (Hst' b). left. reflexivity. }
    assert (Hh : In r0 (handed i [] (h1 ++ LBegin d :: h2)) -> In r0 (handed i [] ((h1 ++ LBegin d :: h2) ++ [l]))).
    { intro Hin. rewrite handed_app. destruct l as [|k b|k|d'|k|r k]; cbn; auto.
      - destruct (Nat.eqb_spec k i) as [->|]; [congruence|exact Hin].
      - destruct (k =? i); [apply in_or_app; auto|exact Hin]. }
    destruct l as [|k b|k|d'|r|r k]; cbn [lrun lstep] in H.
    + injection H as <-. exists c. cbn. intuition.
    + destruct (k <? length (p_srcs q1)); [|discriminate]. injection H as <-. exists c. unfold store. rewrite set_src_inc. intuition.
    + destruct (k <? length (p_srcs q1)); [|discriminate]. injection H as <-. exists c. unfold clear. rewrite set_src_inc. intuition.
    + injection H as <-. exists c. cbn. rewrite nth_error_app1 by (apply nth_error_lt in Hc; exact Hc). intuition.
    + destruct (nth_error (p_inc q1) r) as [c1|] eqn:Ec; [|discriminate].
      destruct (c_look c1) as [|k lk] eqn:El; [discriminate|]. injection H as <-. cbn [with_inc p_inc].
      destruct (Nat.eq_dec r r0) as [->|Hne].
      * rewrite Hc in Ec. injection Ec as <-. rewrite set_nth_same by (apply nth_error_lt in Hc; exact Hc).
        eexists. split; [reflexivity|]. cbn [c_look c_todo]. rewrite El in HI.
        destruct HI as [[->|HI]|[HI|HI]].
        -- right. left. rewrite Hon2. left. reflexivity.
        -- left. exact HI.
        -- right. left. destruct (rec_of k q1); [right|]; exact HI.
        -- right. right. apply Hh, HI.
      * rewrite set_nth_other by congruence. exists c. intuition.
    + destruct (nth_error (p_inc q1) r) as [c1|] eqn:Ec; [|discriminate].
      destruct (c_look c1) as [|k0 lk] eqn:El; [|discriminate].
      destruct (existsb (Nat.eqb k) (c_todo c1)) eqn:Ek; [|discriminate]. injection H as <-.
      unfold add. rewrite set_src_inc. cbn [with_inc p_inc].
      destruct (Nat.eq_dec r r0) as [->|Hne].
      * rewrite Hc in Ec. injection Ec as <-. rewrite set_nth_same by (apply nth_error_lt in Hc; exact Hc).
        eexists. split; [reflexivity|]. cbn [c_look c_todo]. rewrite El in HI.
        destruct HI as [[]|[HI|HI]].
        -- destruct (Nat.eq_dec k i) as [->|Hki].
           ++ right. right. rewrite handed_app. cbn. rewrite Nat.eqb_refl. apply in_or_app. right. left. reflexivity.
           ++ right. left. apply filter_In. split; [exact HI|]. apply negb_true_iff, Nat.eqb_neq. exact Hki.
        -- right. right. apply Hh, HI.
      * rewrite set_nth_other by congruence. exists c. intuition.
Qed.
Lemma complete_lemma (h1 h2 : list (label D)) d p i :
  lrun (h1 ++ LBegin d :: h2) prov0 = Some p -> on i false h1 = true -> i < lmade h1 ->
  (forall b, ~ In (LStore i b) h2) -> ~ In (LClear i) h2 ->
  over (length (begun h1)) p -> In d (data_of i p).
Proof.
  intros H Hon Hm Hst Hcl Ho. pose proof (complete_handed h1 h2 d p i H Hon Hm Hst Hcl Ho) as Hin.
  apply linv_run in H. pose proof (li_data _ _ H i) as F. 
  assert (Hd : nth_error (begun (h1 ++ LBegin d :: h2)) (length (begun h1)) = Some d).
  { rewrite begun_app, nth_error_app2, Nat.sub_diag by lia. reflexivity. }
  induction F as [|r x l m Hrx F IH]; [destruct Hin|].
  destruct Hin as [->|Hin]; [|right; auto]. rewrite Hd in Hrx. injection Hrx as ->. left. reflexivity.
Qed.
End P.
