(** Proofs about the program babeltrace and the LTTng provider. *)
From Coq Require Import List Arith NArith Ascii Bool Lia.
Import ListNotations.
From Verif Require Import Str_model UnixSystem_model UnixSystem_proofs Lines_model Lines_proofs Tool_model Tool_spec.

Lemma run_app h1 : forall h2 t, run (h1 ++ h2) t = match run h1 t with Some t' => run h2 t' | None => None end.
Proof. induction h1 as [|x h1 IH]; intros h2 t; cbn; auto. destruct (step x t); auto. Qed.

(** ** What is in the pipe *)
Definition part_of (q : stream) : str := match q_part q with Some p => p | None => [] end.
Definition sinv (said : str) (q : stream) : Prop :=
  (exists taken, said = taken ++ part_of q ++ q_buf q ++ q_pipe q) /\
  (forall p, q_part q = Some p -> p <> [] /\ ~ In nl p /\ q_buf q = [] /\ length p < room /\ q_stop q = false).

Lemma sinv0 : sinv [] stream0.
Proof. split; [exists []; reflexivity|]. intros p H. discriminate H. Qed.
Lemma sinv_closed0 : sinv [] closed0.
Proof. split; [exists []; reflexivity|]. intros p H. discriminate H. Qed.
Lemma sinv_print said bs q : q_closed q = false -> sinv said q -> sinv (said ++ bs) (fst (qstep (Print bs) q)).
Proof.
  intros Hc ((tk & E) & H). cbn [qstep]. rewrite Hc. cbn [fst]. split; [|exact H]. exists tk. unfold part_of in *. cbn [q_part q_buf q_pipe]. rewrite E. now rewrite <- !app_assoc.
Qed.
Lemma sinv_close said q : sinv said q -> sinv said (fst (qstep Close q)).
Proof. intros ((tk & E) & H). cbn [qstep fst]. split; [exists tk; exact E|exact H]. Qed.

Lemma sinv_work said q : sinv said q -> sinv said (fst (qstep Lines_model.Work q)) /\ q_closed (fst (qstep Lines_model.Work q)) = q_closed q.
Proof.
  intros HS. pose proof HS as ((tk & E) & H). cbn [qstep]. destruct (q_stop q) eqn:ES; [cbn [fst]; split; [exact HS|reflexivity]|].
  cbn zeta. destruct (match q_part q with Some _ => true | None => match q_pipe q with [] => q_closed q | _ => true end end) eqn:ER; [|cbn [fst]; split; [exact HS|reflexivity]].
  fold (part_of q). pose proof (fgets_spec (room - length (part_of q)) (part_of q) (q_buf q) (q_pipe q) (q_closed q)) as F.
  assert (HP : length (part_of q) < room /\ ~ In nl (part_of q)).
  { unfold part_of. destruct (q_part q) as [p|] eqn:EP; [destruct (H p eq_refl) as (_ & H2 & _ & H4 & _); split; assumption|]. split; [apply room_pos|intros []]. }
  destruct (fgets _ _ _ _ _) as [piece buf pipe|part|piece]; cbn [fst q_closed]; (split; [|reflexivity]); unfold sinv, part_of in *; cbn [q_part q_buf q_pipe q_stop].
  - destruct F as (u & E1 & E2 & _). split; [|discriminate]. exists (tk ++ match q_part q with Some p => p | None => [] end ++ u). rewrite E. cbn [app]. rewrite E2. now rewrite <- !app_assoc.
  - destruct F as (E1 & E2 & E3 & E4). split.
    + exists tk. rewrite E, E1. cbn [app]. now rewrite app_nil_r.
    + intros p K. assert (K' : p = part) by congruence. subst p. destruct HP as (HP1 & HP2). repeat split; auto.
      * subst part. destruct (q_part q) as [p|]; [destruct (H p eq_refl) as (H1 & _); clear - H1; destruct p; [congruence|discriminate]|]. cbn. destruct (q_pipe q); [congruence|]. now destruct (q_buf q).
      * rewrite E1. intros K1. apply in_app_or in K1. tauto.
      * rewrite E1, app_length. lia.
  - destruct F as (E1 & _). split; [|discriminate]. exists said. now rewrite app_nil_r.
Qed.

(** ** The invariant *)
Record tinv (t : tool) : Prop := {
  i_dead : t_dead t = false;
  i_none : t_proc t = None -> t_worker t = WNone;
  i_kill : t_user t = UKill -> t_worker t = WNone /\ t_proc t <> None;
  i_child : forall i, t_proc t = Some (Child i) -> i < length (t_children t);
  i_open : forall i c, t_proc t = Some (Child i) -> nth_error (t_children t) i = Some c -> c_fate c = Runs -> q_closed (t_q t) = false;
  i_pipe : sinv (t_said t) (t_q t);
}.

Lemma tinv0 : tinv tool0.
Proof. constructor; cbn; try discriminate; auto. apply sinv0. Qed.

Lemma nth_set i j (c : child) l : nth_error (set_nth i c l) j = if Nat.eqb i j then match nth_error l j with Some _ => Some c | None => None end else nth_error l j.
Proof.
  revert i j. induction l as [|x l IH]; intros [|i] [|j]; cbn; auto; destruct (Nat.eqb i j); auto.
Qed.
Lemma len_set i (c : child) l : length (set_nth i c l) = length l.
Proof. revert i. induction l as [|x l IH]; intros [|i]; cbn; auto. Qed.

Lemma tinv_set i c c' t : tinv t -> nth_error (t_children t) i = Some c -> (c_fate c' = Runs -> c_fate c = Runs) -> tinv (set_child i c' t).
Proof.
  intros [H1 H2 H3 H4 H5 H6] E HF. constructor; cbn; auto.
  - intros j Hj. rewrite len_set. auto.
  - intros j d Hj Hn Hd. rewrite nth_set in Hn. destruct (Nat.eqb_spec i j) as [<-|N].
    + rewrite E in Hn. assert (d = c') by congruence. subst d. eapply H5; eauto.
    + eapply H5; eauto.
Qed.
Lemma current_eq i t : current i t = true <-> t_proc t = Some (Child i).
Proof. unfold current. destruct (t_proc t) as [[j|]|]; split; intro H; try discriminate H. - apply Nat.eqb_eq in H. now subst. - injection H as ->. apply Nat.eqb_refl. Qed.
Lemma tinv_end i c t : tinv t -> nth_error (t_children t) i = Some c -> tinv (end_child i c t).
Proof.
  intros H E. unfold end_child. set (c' := Build_child _ _ _ _).
  assert (HF : c_fate c' = Ended) by reflexivity. assert (T1 : tinv (set_child i c' t)) by (eapply tinv_set; eauto; rewrite HF; discriminate).
  destruct (current i t) eqn:EC; auto. apply current_eq in EC. destruct T1 as [H1 H2 H3 H4 H5 H6]. constructor; cbn [hang_up t_user t_proc t_flag t_worker t_q t_children t_said t_lines t_signals t_dead]; auto.
  - intros j d Hj Hn Hd. exfalso. cbn [set_child t_proc t_children] in Hj, Hn. rewrite nth_set in Hn. assert (i = j) by congruence. subst j. rewrite Nat.eqb_refl, E in Hn. assert (d = c') by congruence. subst d. congruence.
Qed.

Lemma mark_nth w l j c : nth_error (mark w l) j = Some c -> exists c0, nth_error l j = Some c0 /\ c_fate c = c_fate c0 /\ c_script c = c_script c0 /\ c_err c = c_err c0.
Proof.
  unfold mark. destruct w as [i|]; [|eauto]. destruct (nth_error l i) as [d|] eqn:E; [|eauto]. destruct (c_fate d) eqn:EF; eauto. intros H. rewrite nth_set in H. destruct (Nat.eqb_spec i j) as [<-|N]; [|eauto].
  rewrite E in H. injection H as <-. exists d. auto.
Qed.
Lemma mark_len w l : length (mark w l) = length l.
Proof. unfold mark. destruct w as [i|]; auto. destruct (nth_error l i) as [d|]; auto. destruct (c_fate d); auto. apply len_set. Qed.

Lemma nth_snoc {A} (l : list A) x j y : nth_error (l ++ [x]) j = Some y -> (j < length l /\ nth_error l j = Some y) \/ (j = length l /\ y = x).
Proof.
  intros H. destruct (Nat.lt_ge_cases j (length l)) as [K|K]; [left; rewrite nth_error_app1 in H; auto|]. right. rewrite nth_error_app2 in H by lia. destruct (j - length l) as [|k] eqn:E.
  - cbn in H. split; [lia|congruence].
  - cbn in H. destruct k; discriminate H.
Qed.

Lemma tinv_step x t t' : tinv t -> step x t = Some t' -> tinv t'.
Proof.
  intros HI E. pose proof HI as [H1 H2 H3 H4 H5 H6]. unfold step in E. rewrite H1 in E. destruct x as [o| | | | | |i|i|i].
  - destruct (t_user t) eqn:EU; try discriminate E. destruct (t_proc t) as [w|] eqn:EP; injection E as <-; [exact HI|]. rewrite (H2 eq_refl).
    constructor; cbn; auto; try discriminate.
    + intros i Hi. destruct o; [discriminate Hi|]. injection Hi as <-. rewrite app_length. cbn. lia.
    + intros i c Hi _ _. destruct o; [discriminate Hi|reflexivity].
    + destruct o; [apply sinv_closed0|apply sinv0].
  - destruct (t_user t) eqn:EU; try discriminate E. injection E as <-. constructor; cbn; auto. discriminate.
  - destruct (t_user t) eqn:EU; try discriminate E. destruct (t_worker t) eqn:EW; try discriminate E; injection E as <-; (constructor; cbn; auto; destruct (t_proc t); try discriminate; auto; split; auto; discriminate).
  - destruct (t_user t) eqn:EU; try discriminate E. destruct (t_proc t) as [w|] eqn:EP; [|discriminate E]. injection E as <-. destruct (H3 eq_refl) as (K & _). constructor; cbn; auto; discriminate.
  - destruct (t_worker t) eqn:EW; try discriminate E. injection E as <-. constructor; cbn; auto.
    + intros K. specialize (H2 K). congruence.
    + intros K. destruct (H3 K) as (K1 & _). congruence.
  - destruct (t_worker t) eqn:EW; try discriminate E.
    assert (HN : t_proc t <> None) by (intros K; specialize (H2 K); congruence). assert (HK : t_user t <> UKill) by (intros K; destruct (H3 K) as (K1 & _); congruence).
    pose proof (sinv_work _ _ H6) as (W1 & W2). destruct (q_part (t_q t)) as [p|]; [|destruct (t_flag t)];
      try (destruct (qstep Lines_model.Work (t_q t)) as [q o]; cbn [fst] in W1, W2; injection E as <-; constructor; cbn; auto; try contradiction; intros i c Hi Hn Hc; rewrite W2; eapply H5; eauto).
  - destruct (nth_error (t_children t) i) as [c|] eqn:EN; [|discriminate E]. destruct (c_fate c) eqn:EF; try discriminate E. destruct (c_script c) as [|[bs|n] l] eqn:ES.
    + injection E as <-. now apply tinv_end.
    + injection E as <-. set (c' := Build_child _ _ _ _). assert (T1 : tinv (set_child i c' t)) by (eapply tinv_set; eauto). destruct (current i t) eqn:EC; auto. apply current_eq in EC.
      pose proof (H5 _ _ EC EN EF) as HO. destruct T1 as [K1 K2 K3 K4 K5 K6]. constructor; cbn [print set_child t_user t_proc t_flag t_worker t_q t_children t_said t_lines t_signals t_dead] in *; auto.
      * intros j d Hj Hn Hd. cbn [qstep]. rewrite HO. reflexivity.
      * now apply sinv_print.
    + destruct (c_err c + n <=? pipe_size)%N; [|discriminate E]. injection E as <-. eapply tinv_set; eauto.
  - destruct (nth_error (t_children t) i) as [c|] eqn:EN; [|discriminate E]. destruct (c_fate c) eqn:EF; try discriminate E. destruct (c_signalled c); [|discriminate E]. injection E as <-. now apply tinv_end.
  - destruct (nth_error (t_children t) i) as [c|] eqn:EN; [|discriminate E]. destruct (c_fate c) eqn:EF; try discriminate E. injection E as <-. eapply tinv_set; eauto. discriminate.
Qed.
Lemma tinv_run h : forall t t', tinv t -> run h t = Some t' -> tinv t'.
Proof. induction h as [|x h IH]; intros t t' H E; cbn in E; [injection E as <-; auto|]. destruct (step x t) as [t1|] eqn:E1; [|discriminate E]. eapply IH; [|exact E]. eapply tinv_step; eauto. Qed.

(** ** Signals, and what is left *)
Record oinv (t : tool) : Prop := {
  o_proc : t_proc t <> Some Failed;
  o_kept : forall i c, nth_error (t_children t) i = Some c -> c_fate c <> Gone;
  o_sig : forall x, In x (t_signals t) -> exists i, x = Own i;
}.
Lemma oinv_set i c t : oinv t -> c_fate c <> Gone -> oinv (set_child i c t).
Proof.
  intros [H1 H2 H3] HF. constructor; cbn; auto. intros j d Hn. rewrite nth_set in Hn. destruct (Nat.eqb i j); [|eauto]. destruct (nth_error (t_children t) j); [|discriminate Hn]. injection Hn as <-. exact HF.
Qed.
Lemma oinv_end i c t : oinv t -> oinv (end_child i c t).
Proof.
  intros H. unfold end_child. set (c' := Build_child _ _ _ _). assert (T : oinv (set_child i c' t)) by (apply oinv_set; auto; discriminate). destruct (current i t); auto.
  destruct T as [H1 H2 H3]. constructor; auto.
Qed.
Lemma oinv_step x t t' : ordinary x -> tinv t -> oinv t -> step x t = Some t' -> oinv t'.
Proof.
  intros HX HI HO E. pose proof HI as [I1 I2 I3 I4 I5 I6]. pose proof HO as [H1 H2 H3]. unfold step in E. rewrite I1 in E. destruct x as [o| | | | | |i|i|i].
  - destruct (t_user t); try discriminate E. destruct (t_proc t) as [w|] eqn:EP; injection E as <-; [exact HO|]. destruct o; [contradiction HX|]. constructor; cbn; auto; try discriminate.
    intros j c Hn. apply nth_snoc in Hn. destruct Hn as [(_ & Hn)|(_ & ->)]; [eauto|discriminate].
  - destruct (t_user t); try discriminate E. injection E as <-. constructor; auto.
  - destruct (t_user t); try discriminate E. destruct (t_worker t); try discriminate E; injection E as <-; constructor; auto.
  - destruct (t_user t); try discriminate E. destruct (t_proc t) as [w|] eqn:EP; [|discriminate E]. injection E as <-. constructor; cbn; try discriminate.
    + intros j c Hn. apply mark_nth in Hn. destruct Hn as (c0 & Hn & -> & _). eauto.
    + intros x Hx. apply in_app_or in Hx. destruct Hx as [Hx|[<-|[]]]; [auto|]. unfold aim. destruct w as [i|]; [|congruence]. destruct (nth_error (t_children t) i) as [c|] eqn:EN.
      * specialize (H2 _ _ EN). destruct (c_fate c); [eauto|eauto|congruence].
      * exfalso. specialize (I4 i eq_refl). apply nth_error_None in EN. lia.
  - destruct (t_worker t); try discriminate E. injection E as <-. constructor; auto.
  - destruct (t_worker t); try discriminate E. destruct (q_part (t_q t)) as [p|]; [|destruct (t_flag t)]; try (destruct (qstep Lines_model.Work (t_q t)) as [q o]); injection E as <-; constructor; auto.
  - destruct (nth_error (t_children t) i) as [c|] eqn:EN; [|discriminate E]. destruct (c_fate c) eqn:EF; try discriminate E. destruct (c_script c) as [|[bs|n] l] eqn:ES.
    + injection E as <-. now apply oinv_end.
    + injection E as <-. set (c' := Build_child _ _ _ _). assert (T : oinv (set_child i c' t)) by (apply oinv_set; auto; discriminate). destruct (current i t); auto. destruct T as [K1 K2 K3]. constructor; auto.
    + destruct (c_err c + n <=? pipe_size)%N; [|discriminate E]. injection E as <-. apply oinv_set; auto; discriminate.
  - destruct (nth_error (t_children t) i) as [c|] eqn:EN; [|discriminate E]. destruct (c_fate c) eqn:EF; try discriminate E. destruct (c_signalled c); [|discriminate E]. injection E as <-. now apply oinv_end.
  - contradiction HX.
Qed.
Lemma oinv_run h : forall t t', Forall ordinary h -> tinv t -> oinv t -> run h t = Some t' -> oinv t'.
Proof.
  induction h as [|x h IH]; intros t t' HF HI HO E; cbn in E; [injection E as <-; auto|]. destruct (step x t) as [t1|] eqn:E1; [|discriminate E]. inversion HF as [|? ? F1 F2]; subst.
  eapply (IH t1); auto; [eapply tinv_step; eauto|eapply oinv_step; eauto].
Qed.
Lemma oinv0 : oinv tool0.
Proof. constructor; cbn; try discriminate; [|contradiction]. intros [|i] c H; discriminate H. Qed.

Theorem only_own h t : Forall ordinary h -> run h tool0 = Some t -> forall x, In x (t_signals t) -> exists i, x = Own i.
Proof. intros HF E. exact (o_sig _ (oinv_run h _ _ HF tinv0 oinv0 E)). Qed.
Theorem never_dead h t : run h tool0 = Some t -> t_dead t = false.
Proof. intros E. exact (i_dead _ (tinv_run h _ _ tinv0 E)). Qed.

Lemma len_step x t t' : step x t = Some t' -> length (t_children t) <= length (t_children t').
Proof.
  unfold step. destruct (t_dead t); [discriminate|]. intros E. destruct x as [o| | | | | |i|i|i].
  - destruct (t_user t); try discriminate E. destruct (t_proc t); injection E as <-; auto. cbn. rewrite app_length. lia.
  - destruct (t_user t); try discriminate E. injection E as <-. auto.
  - destruct (t_user t); try discriminate E. destruct (t_worker t); try discriminate E; injection E as <-; auto.
  - destruct (t_user t); try discriminate E. destruct (t_proc t); [|discriminate E]. injection E as <-. cbn. now rewrite mark_len.
  - destruct (t_worker t); try discriminate E. injection E as <-. auto.
  - destruct (t_worker t); try discriminate E. destruct (q_part (t_q t)) as [p|]; [|destruct (t_flag t)]; try (destruct (qstep Lines_model.Work (t_q t)) as [q o]); injection E as <-; auto.
  - destruct (nth_error (t_children t) i) as [c|]; [|discriminate E]. destruct (c_fate c); try discriminate E. destruct (c_script c) as [|[bs|n] l].
    + injection E as <-. unfold end_child. destruct (current i t); cbn; now rewrite len_set.
    + injection E as <-. destruct (current i t); cbn; now rewrite len_set.
    + destruct (c_err c + n <=? pipe_size)%N; [|discriminate E]. injection E as <-. cbn. now rewrite len_set.
  - destruct (nth_error (t_children t) i) as [c|]; [|discriminate E]. destruct (c_fate c); try discriminate E. destruct (c_signalled c); [|discriminate E]. injection E as <-. unfold end_child. destruct (current i t); cbn; now rewrite len_set.
  - destruct (nth_error (t_children t) i) as [c|]; [|discriminate E]. destruct (c_fate c); try discriminate E. injection E as <-. cbn. now rewrite len_set.
Qed.
Lemma len_run h : forall t t', run h t = Some t' -> length (t_children t) <= length (t_children t').
Proof. induction h as [|x h IH]; intros t t' E; cbn in E; [injection E as <-; auto|]. destruct (step x t) as [t1|] eqn:E1; [|discriminate E]. apply len_step in E1. apply IH in E. lia. Qed.

Theorem always_left h1 l h2 t1 t : Forall ordinary (h1 ++ Init (Runs_script l) :: h2) -> run h1 tool0 = Some t1 -> t_proc t1 = None ->
  run (Init (Runs_script l) :: h2) t1 = Some t -> in_table (length (t_children t1)) t.
Proof.
  intros HF E1 EP E2. pose proof (tinv_run _ _ _ tinv0 E1) as I1. assert (E : run (h1 ++ Init (Runs_script l) :: h2) tool0 = Some t) by (rewrite run_app, E1; exact E2).
  pose proof (o_kept _ (oinv_run _ _ _ HF tinv0 oinv0 E)) as K. cbn [run] in E2. destruct (step (Init (Runs_script l)) t1) as [t2|] eqn:ES; [|discriminate E2]. apply len_run in E2.
  unfold step in ES. rewrite (i_dead _ I1), EP in ES. destruct (t_user t1); try discriminate ES. injection ES as <-. cbn [t_children] in E2. rewrite app_length in E2. cbn in E2.
  destruct (nth_error (t_children t) (length (t_children t1))) as [c|] eqn:EN; [exists c; split; eauto|]. apply nth_error_None in EN. lia.
Qed.

(** ** Every child that is not the present one has been told to end *)
Definition einv (t : tool) : Prop := forall i c, nth_error (t_children t) i = Some c -> c_fate c = Runs -> current i t = false -> c_signalled c = true.
Lemma einv_set i c c' t : nth_error (t_children t) i = Some c -> (c_fate c' = Runs -> c_fate c = Runs) -> c_signalled c' = c_signalled c -> einv t -> einv (set_child i c' t).
Proof.
  intros HN HF HS H j d Hn Hd Hc. cbn [set_child t_children] in Hn. rewrite nth_set in Hn. destruct (Nat.eqb_spec i j) as [<-|N]; [|eapply H; eauto].
  rewrite HN in Hn. assert (d = c') by congruence. subst d. rewrite HS. eapply H; eauto.
Qed.
Lemma einv_end i c t : nth_error (t_children t) i = Some c -> einv t -> einv (end_child i c t).
Proof.
  intros HN H. unfold end_child. set (c' := Build_child _ _ _ _). assert (T : einv (set_child i c' t)) by (eapply einv_set; eauto; discriminate). destruct (current i t); auto.
Qed.
Lemma mark_signalled i l c : nth_error (mark (Child i) l) i = Some c -> c_fate c = Runs -> c_signalled c = true.
Proof.
  unfold mark. destruct (nth_error l i) as [d|] eqn:E; [|congruence]. destruct (c_fate d) eqn:EF; intros H HF; try congruence. rewrite nth_set, Nat.eqb_refl, E in H. injection H as <-. reflexivity.
Qed.
Lemma mark_other i l j : i <> j -> nth_error (mark (Child i) l) j = nth_error l j.
Proof. intros N. unfold mark. destruct (nth_error l i) as [d|]; auto. destruct (c_fate d); auto. rewrite nth_set. destruct (Nat.eqb_spec i j); [contradiction|reflexivity]. Qed.
Lemma einv_step x t t' : tinv t -> einv t -> step x t = Some t' -> einv t'.
Proof.
  intros HI H E. pose proof HI as [I1 I2 I3 I4 I5 I6]. unfold step in E. rewrite I1 in E. destruct x as [o| | | | | |i|i|i].
  - destruct (t_user t); try discriminate E. destruct (t_proc t) as [w|] eqn:EP; injection E as <-; [exact H|]. intros j c Hn Hc Hj. cbn [t_children] in Hn.
    assert (C0 : forall k, current k t = false) by (intros k; unfold current; now rewrite EP). destruct o; [rewrite app_nil_r in Hn; eapply H; eauto|].
    apply nth_snoc in Hn. destruct Hn as [(_ & Hn)|(Ej & _)]; [eapply H; eauto|]. unfold current in Hj. cbn [t_proc] in Hj. rewrite Ej, Nat.eqb_refl in Hj. discriminate Hj.
  - destruct (t_user t); try discriminate E. injection E as <-. exact H.
  - destruct (t_user t); try discriminate E. destruct (t_worker t); try discriminate E; injection E as <-; exact H.
  - destruct (t_user t); try discriminate E. destruct (t_proc t) as [w|] eqn:EP; [|discriminate E]. injection E as <-. intros j c Hn Hc _. cbn [t_children] in Hn. destruct w as [i|].
    + destruct (Nat.eq_dec i j) as [<-|N]; [eapply mark_signalled; eauto|]. rewrite mark_other in Hn by exact N. eapply H; eauto. unfold current. rewrite EP. apply Nat.eqb_neq. auto.
    + cbn [mark] in Hn. eapply H; eauto. unfold current. now rewrite EP.
  - destruct (t_worker t); try discriminate E. injection E as <-. exact H.
  - destruct (t_worker t); try discriminate E. destruct (q_part (t_q t)) as [p|]; [|destruct (t_flag t)]; try (destruct (qstep Lines_model.Work (t_q t)) as [q o]); injection E as <-; exact H.
  - destruct (nth_error (t_children t) i) as [c|] eqn:EN; [|discriminate E]. destruct (c_fate c) eqn:EF; try discriminate E. destruct (c_script c) as [|[bs|n] l] eqn:ES.
    + injection E as <-. now apply einv_end.
    + injection E as <-. set (c' := Build_child _ _ _ _). assert (T : einv (set_child i c' t)) by (eapply einv_set; eauto). destruct (current i t); auto.
    + destruct (c_err c + n <=? pipe_size)%N; [|discriminate E]. injection E as <-. eapply einv_set; eauto.
  - destruct (nth_error (t_children t) i) as [c|] eqn:EN; [|discriminate E]. destruct (c_fate c) eqn:EF; try discriminate E. destruct (c_signalled c); [|discriminate E]. injection E as <-. now apply einv_end.
  - destruct (nth_error (t_children t) i) as [c|] eqn:EN; [|discriminate E]. destruct (c_fate c) eqn:EF; try discriminate E. injection E as <-. eapply einv_set; eauto. discriminate.
Qed.
Theorem told_to_end h t i c : run h tool0 = Some t -> nth_error (t_children t) i = Some c -> c_fate c = Runs -> current i t = false -> c_signalled c = true.
Proof.
  assert (G : forall h t t', tinv t -> einv t -> run h t = Some t' -> einv t').
  { clear. induction h as [|x h IH]; intros t t' HI HE E; cbn in E; [injection E as <-; auto|]. destruct (step x t) as [t1|] eqn:E1; [|discriminate E].
    apply (IH t1); auto; [eapply tinv_step; eauto|eapply einv_step; eauto]. }
  intros E. apply (G h tool0 t tinv0); [|exact E]. intros [|j] d K; discriminate K.
Qed.

(** ** [halt] returns *)
Definition stopping (t : tool) : Prop := t_user t = UJoin /\ t_flag t = false /\ t_worker t <> WBorn.
Lemma stopping_step x t t' : tinv t -> stopping t -> x <> Join -> step x t = Some t' -> stopping t'.
Proof.
  intros HI (H1 & H2 & H3) HX E. unfold step in E. rewrite (i_dead _ HI) in E. destruct x as [o| | | | | |i|i|i]; try (rewrite H1 in E; discriminate E); try contradiction.
  - destruct (t_worker t); try discriminate E. contradiction.
  - destruct (t_worker t) eqn:EW; try discriminate E. rewrite H2 in E. destruct (q_part (t_q t)) as [p|]; [destruct (qstep Lines_model.Work (t_q t)) as [q o]|]; injection E as <-; repeat split; cbn; auto; discriminate.
  - destruct (nth_error (t_children t) i) as [c|]; [|discriminate E]. destruct (c_fate c); try discriminate E. destruct (c_script c) as [|[bs|n] l].
    + injection E as <-. unfold end_child. destruct (current i t); repeat split; cbn; auto.
    + injection E as <-. destruct (current i t); repeat split; cbn; auto.
    + destruct (c_err c + n <=? pipe_size)%N; [|discriminate E]. injection E as <-. repeat split; cbn; auto.
  - destruct (nth_error (t_children t) i) as [c|]; [|discriminate E]. destruct (c_fate c); try discriminate E. destruct (c_signalled c); [|discriminate E]. injection E as <-. unfold end_child. destruct (current i t); repeat split; cbn; auto.
  - destruct (nth_error (t_children t) i) as [c|]; [|discriminate E]. destruct (c_fate c); try discriminate E. injection E as <-. repeat split; cbn; auto.
Qed.
Lemma stopping_run h : forall t t', tinv t -> stopping t -> ~ In Join h -> run h t = Some t' -> stopping t'.
Proof.
  induction h as [|x h IH]; intros t t' HI HS HN E; cbn in E; [injection E as <-; auto|]. destruct (step x t) as [t1|] eqn:E1; [|discriminate E]. cbn in HN.
  apply (IH t1); auto; [eapply tinv_step; eauto|]. eapply stopping_step; eauto.
Qed.

Lemma finish_halt t : tinv t -> t_user t = UJoin -> (t_worker t = WNone \/ t_worker t = WDone) -> exists fin t', (fin = [Join] \/ fin = [Join; Kill]) /\ run fin t = Some t' /\ halted t'.
Proof.
  intros HI HU HW. destruct (t_proc t) as [w|] eqn:EP.
  - exists [Join; Kill]. cbn [run]. unfold step at 1. rewrite (i_dead _ HI), HU. destruct HW as [-> | ->]; rewrite EP; unfold step; cbn; eexists; repeat split; auto.
  - exists [Join]. cbn [run]. unfold step at 1. rewrite (i_dead _ HI), HU. destruct HW as [-> | ->]; rewrite EP; eexists; repeat split; auto.
Qed.

Lemma step_work_part t p : tinv t -> t_worker t = WLoop -> t_flag t = false -> q_part (t_q t) = Some p -> between_lines t ->
  exists t', step Work t = Some t' /\ t_user t' = t_user t /\ t_worker t' = WLoop /\ t_flag t' = false /\ q_part (t_q t') = None.
Proof.
  intros HI HW HF HP HB. unfold step. rewrite (i_dead _ HI), HW, HP. destruct (i_pipe _ HI) as ((tk & E) & H). destruct (H p HP) as (H1 & H2 & H3 & H4 & H5).
  cbn [qstep]. rewrite H5, HP. pose proof (fgets_spec (room - length p) p (q_buf (t_q t)) (q_pipe (t_q t)) (q_closed (t_q t))) as F.
  destruct (fgets _ _ _ _ _) as [piece buf pipe|part|piece].
  - eexists. split; [reflexivity|]. cbn. rewrite HF. auto.
  - exfalso. destruct F as (E1 & E2 & E3 & _). unfold part_of in E. rewrite HP, H3 in E. rewrite H3 in E2. cbn [app] in E, E2. destruct HB as [HB|[(l & HB)|HB]]; [| |congruence].
    + rewrite HB in E. destruct tk; [|discriminate E]. destruct p; [congruence|discriminate E].
    + assert (K : exists x u, p ++ q_pipe (t_q t) = u ++ [x]).
      { destruct (exists_last (l := p ++ q_pipe (t_q t))) as (u & x & Eu); [destruct p; [congruence|discriminate]|eauto]. }
      destruct K as (x & u & Eu). rewrite HB, Eu in E. rewrite app_assoc in E. apply app_inj_tail in E. destruct E as (_ & <-).
      assert (In nl (p ++ q_pipe (t_q t))) as K by (rewrite Eu; apply in_or_app; right; left; reflexivity). apply in_app_or in K. tauto.
  - eexists. split; [reflexivity|]. cbn. rewrite HF. auto.
Qed.

Theorem halt_returns h1 h2 t1 t : run h1 tool0 = Some t1 -> t_worker t1 <> WBorn -> run (Halt :: h2) t1 = Some t -> ~ In Join h2 -> between_lines t ->
  exists k fin t', k <= 2 /\ (fin = [Join] \/ fin = [Join; Kill]) /\ run (repeat Work k ++ fin) t = Some t' /\ halted t'.
Proof.
  intros E1 HB E2 HN HL. pose proof (tinv_run _ _ _ tinv0 E1) as I1.
  assert (IT : tinv t) by (eapply tinv_run; [exact I1|exact E2]).
  assert (ST : stopping t).
  { cbn [run] in E2. destruct (step Halt t1) as [t2|] eqn:ES; [|discriminate E2]. pose proof (tinv_step _ _ _ I1 ES) as I2. apply (stopping_run h2 t2 t I2); [|exact HN|exact E2].
    unfold step in ES. rewrite (i_dead _ I1) in ES. destruct (t_user t1); try discriminate ES. injection ES as <-. repeat split; auto. }
  destruct ST as (S1 & S2 & S3). destruct (t_worker t) eqn:EW; [|contradiction| |].
  - destruct (finish_halt t IT S1) as (fin & t' & F1 & F2 & F3); auto. exists 0, fin, t'. repeat split; auto; apply F3.
  - assert (LAST : forall u, tinv u -> t_user u = UJoin -> t_worker u = WLoop -> t_flag u = false -> q_part (t_q u) = None -> exists fin t', (fin = [Join] \/ fin = [Join; Kill]) /\ run (Work :: fin) u = Some t' /\ halted t').
    { intros u IU U1 U2 U3 U4. assert (exists u', step Work u = Some u' /\ t_user u' = UJoin /\ t_worker u' = WDone) as (u' & X1 & X2 & X3).
      { unfold step. rewrite (i_dead _ IU), U2, U4, U3. eexists. split; [reflexivity|]. auto. }
      destruct (finish_halt u') as (fin & t' & F1 & F2 & F3); auto; [eapply tinv_step; eauto|]. exists fin, t'. repeat split; auto; try apply F3. cbn [run]. rewrite X1. exact F2. }
    destruct (q_part (t_q t)) as [p|] eqn:EQ.
    + destruct (step_work_part t p IT EW S2 EQ HL) as (t2 & X1 & X2 & X3 & X4 & X5). destruct (LAST t2) as (fin & t' & F1 & F2 & F3); auto; [eapply tinv_step; eauto|congruence|].
      exists 2, fin, t'. repeat split; auto; try apply F3. cbn [repeat app run]. rewrite X1. exact F2.
    + destruct (LAST t) as (fin & t' & F1 & F2 & F3); auto. exists 1, fin, t'. repeat split; auto; try apply F3.
  - destruct (finish_halt t IT S1) as (fin & t' & F1 & F2 & F3); auto. exists 0, fin, t'. repeat split; auto; apply F3.
Qed.

(** ** What gets out of the program *)
Definition cinv (l : list write) (i : nat) (t : tool) : Prop :=
  exists c done, nth_error (t_children t) i = Some c /\ l = done ++ c_script c /\ c_err c = errs done /\ (errs done <= pipe_size)%N /\ (current i t = true -> t_said t = outs done).

Lemma outs_app a b : outs (a ++ b) = outs a ++ outs b.
Proof. unfold outs. apply flat_map_app. Qed.
Lemma errs_app a b : errs (a ++ b) = (errs a + errs b)%N.
Proof. unfold errs. induction a as [|[bs|n] a IH]; cbn; auto. rewrite IH. lia. Qed.

Lemma cinv_step l i x t t' : tinv t -> cinv l i t -> step x t = Some t' -> cinv l i t'.
Proof.
  intros HI (c & d & HC & HL & HE & HB & HS) E. pose proof HI as [I1 I2 I3 I4 I5 I6]. unfold step in E. rewrite I1 in E.
  assert (KEEP : forall t2, t_children t2 = t_children t -> t_said t2 = t_said t -> t_proc t2 = t_proc t -> cinv l i t2).
  { intros t2 K1 K2 K3. exists c, d. rewrite K1, K2. unfold current in *. rewrite K3. auto 10. }
  assert (SET : forall j c' f, (nth_error (t_children t) j = Some f /\ c_script c' = c_script f /\ c_err c' = c_err f) -> cinv l i (set_child j c' t)).
  { intros j c' f (K1 & K2 & K3). destruct (Nat.eq_dec j i) as [->|N].
    - exists c', d. assert (f = c) by congruence. subst f. cbn. rewrite nth_set, Nat.eqb_refl, HC, K2, K3. repeat split; auto.
    - exists c, d. cbn. rewrite nth_set. destruct (Nat.eqb_spec j i); [contradiction|]. repeat split; auto. }
  destruct x as [o| | | | | |j|j|j].
  - destruct (t_user t); try discriminate E. destruct (t_proc t) as [w|] eqn:EP; injection E as <-; [apply KEEP; auto|]. exists c, d. cbn [t_children t_said t_proc].
    rewrite nth_error_app1 by (apply nth_error_Some; congruence). repeat split; auto. intros K. apply current_eq in K. cbn in K. destruct o; [discriminate K|]. injection K as K.
    exfalso. assert (i < length (t_children t)) by (apply nth_error_Some; congruence). lia.
  - destruct (t_user t); try discriminate E. injection E as <-. apply KEEP; auto.
  - destruct (t_user t); try discriminate E. destruct (t_worker t); try discriminate E; injection E as <-; apply KEEP; auto.
  - destruct (t_user t); try discriminate E. destruct (t_proc t) as [w|] eqn:EP; [|discriminate E]. injection E as <-.
    destruct (nth_error (mark w (t_children t)) i) as [c'|] eqn:EM.
    + destruct (mark_nth _ _ _ _ EM) as (c0 & K1 & _ & K2 & K3). assert (c0 = c) by congruence. subst c0. exists c', d. cbn [t_children]. rewrite EM, K2, K3. repeat split; auto. discriminate.
    + exfalso. apply nth_error_None in EM. rewrite mark_len in EM. apply nth_error_None in EM. congruence.
  - destruct (t_worker t); try discriminate E. injection E as <-. apply KEEP; auto.
  - destruct (t_worker t); try discriminate E. destruct (q_part (t_q t)) as [p|]; [|destruct (t_flag t)]; try (destruct (qstep Lines_model.Work (t_q t)) as [q o]); injection E as <-; apply KEEP; auto.
  - destruct (nth_error (t_children t) j) as [f|] eqn:EN; [|discriminate E]. destruct (c_fate f) eqn:EF; try discriminate E. destruct (c_script f) as [|[bs|n] r] eqn:ES.
    + injection E as <-. unfold end_child. set (c' := Build_child _ _ _ _). specialize (SET j c' f (conj EN (conj eq_refl eq_refl))). destruct (current j t); auto.
    + injection E as <-. set (c' := Build_child _ _ _ _). destruct (Nat.eq_dec j i) as [->|N].
      * assert (f = c) by congruence. subst f. assert (G : l = (d ++ [Out bs]) ++ r) by (rewrite <- app_assoc, HL, ES; reflexivity).
        exists c', (d ++ [Out bs]). destruct (current i t) eqn:EC; cbn [print set_child t_children t_said]; rewrite nth_set, Nat.eqb_refl, HC; rewrite errs_app; cbn [errs fold_right]; rewrite N.add_0_r; repeat split; auto.
        -- intros _. rewrite outs_app, HS by auto. cbn. now rewrite app_nil_r.
        -- intros K. unfold current in *. cbn in K. congruence.
      * exists c, d. destruct (current j t) eqn:EC; cbn [print set_child t_children t_said]; rewrite nth_set; (destruct (Nat.eqb_spec j i); [contradiction|]); repeat split; auto.
        intros K. exfalso. apply current_eq in EC. assert (K' : current i t = true) by (unfold current in *; exact K). apply current_eq in K'. congruence.
    + destruct (N.leb_spec (c_err f + n) pipe_size) as [HLE|]; [|discriminate E]. injection E as <-. set (c' := Build_child _ _ _ _). destruct (Nat.eq_dec j i) as [->|N].
      * assert (f = c) by congruence. subst f. assert (G : l = (d ++ [Err n]) ++ r) by (rewrite <- app_assoc, HL, ES; reflexivity).
        exists c', (d ++ [Err n]). cbn [set_child t_children t_said]. rewrite nth_set, Nat.eqb_refl, HC. rewrite errs_app. cbn [errs fold_right]. rewrite N.add_0_r. repeat split; auto.
        -- cbn. now rewrite HE.
        -- rewrite <- HE. exact HLE.
        -- intros K. rewrite outs_app. cbn. rewrite app_nil_r. apply HS. exact K.
      * exists c, d. cbn [set_child t_children t_said]. rewrite nth_set. destruct (Nat.eqb_spec j i); [contradiction|]. repeat split; auto.
  - destruct (nth_error (t_children t) j) as [f|] eqn:EN; [|discriminate E]. destruct (c_fate f); try discriminate E. destruct (c_signalled f); [|discriminate E]. injection E as <-.
    unfold end_child. set (c' := Build_child _ _ _ _). specialize (SET j c' f (conj EN (conj eq_refl eq_refl))). destruct (current j t); auto.
  - destruct (nth_error (t_children t) j) as [f|] eqn:EN; [|discriminate E]. destruct (c_fate f); try discriminate E. injection E as <-. apply (SET j _ f). auto.
Qed.
Lemma cinv_run l i h : forall t t', tinv t -> cinv l i t -> run h t = Some t' -> cinv l i t'.
Proof. induction h as [|x h IH]; intros t t' HI HC E; cbn in E; [injection E as <-; auto|]. destruct (step x t) as [t1|] eqn:E1; [|discriminate E]. apply (IH t1); auto; [eapply tinv_step; eauto|eapply cinv_step; eauto]. Qed.

Lemma cinv_init h1 l h2 t1 t : run h1 tool0 = Some t1 -> t_proc t1 = None -> run (Init (Runs_script l) :: h2) t1 = Some t -> cinv l (length (t_children t1)) t /\ tinv t.
Proof.
  intros E1 EP E2. pose proof (tinv_run _ _ _ tinv0 E1) as I1. split; [|eapply tinv_run; [exact I1|exact E2]].
  cbn [run] in E2. destruct (step (Init (Runs_script l)) t1) as [t2|] eqn:ES; [|discriminate E2]. eapply cinv_run; [eapply tinv_step; eauto| |exact E2].
  unfold step in ES. rewrite (i_dead _ I1), EP in ES. destruct (t_user t1); try discriminate ES. injection ES as <-.
  exists {| c_script := l; c_err := 0; c_fate := Runs; c_signalled := false |}, []. cbn [t_children t_said]. rewrite nth_error_app2 by auto. rewrite Nat.sub_diag. repeat split; auto. discriminate.
Qed.

Theorem keeps_going h1 l h2 t1 t : run h1 tool0 = Some t1 -> t_proc t1 = None -> run (Init (Runs_script l) :: h2) t1 = Some t -> (errs l <= pipe_size)%N ->
  forall c, nth_error (t_children t) (length (t_children t1)) = Some c -> c_fate c = Runs -> step (Speak (length (t_children t1))) t <> None /\
  (current (length (t_children t1)) t = true -> outs l = t_said t ++ outs (c_script c)).
Proof.
  intros E1 EP E2 HL c HC HF. destruct (cinv_init _ _ _ _ _ E1 EP E2) as ((c0 & d & K1 & K2 & K3 & K4 & K5) & IT). assert (c0 = c) by congruence. subst c0. split.
  - unfold step. rewrite (i_dead _ IT), HC, HF. destruct (c_script c) as [|[bs|n] r] eqn:ES; try discriminate. rewrite K2, errs_app in HL. cbn [errs fold_right] in HL. fold (errs r) in HL. rewrite K3.
    destruct (N.leb_spec (errs d + n) pipe_size); [discriminate|lia].
  - intros HCur. rewrite K2, outs_app, K5 by auto. reflexivity.
Qed.

Theorem stalls h1 l1 n l2 h2 t1 t : run h1 tool0 = Some t1 -> t_proc t1 = None -> run (Init (Runs_script (l1 ++ Err n :: l2)) :: h2) t1 = Some t -> (pipe_size < errs l1 + n)%N ->
  current (length (t_children t1)) t = true -> exists r, outs l1 = t_said t ++ r.
Proof.
  intros E1 EP E2 HL HCur. destruct (cinv_init _ _ _ _ _ E1 EP E2) as ((c & d & K1 & K2 & K3 & K4 & K5) & IT). rewrite K5 by auto. clear - K2 K4 HL.
  revert l1 K2 HL K4. generalize pipe_size as m. induction d as [|w d IH]; intros m l1 K2 HL K4; [eexists; reflexivity|]. destruct l1 as [|w1 l1]; cbn [app] in K2.
  - assert (w = Err n) by congruence. subst w. change (errs (Err n :: d)) with (n + errs d)%N in K4. change (errs []) with 0%N in HL. lia.
  - assert (w1 = w) by congruence. subst w1. assert (K2' : l1 ++ Err n :: l2 = d ++ c_script c) by congruence. destruct w as [bs|k]; [change (errs (Out bs :: l1)) with (errs l1) in HL; change (errs (Out bs :: d)) with (errs d) in K4|change (errs (Err k :: l1)) with (k + errs l1)%N in HL; change (errs (Err k :: d)) with (k + errs d)%N in K4].
    + destruct (IH m l1 K2' HL K4) as (r & E). exists r. cbn. rewrite <- app_assoc. unfold outs in E. now rewrite E.
    + destruct (IH (m - k)%N l1 K2') as (r & E); [lia|lia|]. exists r. exact E.
Qed.

(** ** A program that cannot be executed *)
Lemma processes_own p : fst (processes p) = deeds p.
Proof. induction p as [|[n|f] p IH]; cbn; auto; destruct (processes p) as [o os]; cbn in *; [now rewrite IH|destruct f; exact IH]. Qed.
Theorem copies p : fst (processes p) = deeds p /\ S (length (snd (processes p))) = 2 ^ in_vain p.
Proof.
  split; [apply processes_own|]. induction p as [|[n|f] p IH]; cbn; auto; unfold in_vain in *; cbn [filter]; destruct (processes p) as [o os]; cbn [snd] in *; auto.
  destruct f; cbn [snd length]; auto. rewrite app_length. cbn [length Nat.pow]. lia.
Qed.
Theorem single p : in_vain p = 0 -> processes p = (deeds p, []).
Proof.
  intros H. pose proof (copies p) as (E1 & E2). rewrite H in E2. cbn in E2. destruct (processes p) as [o os]. cbn in *. subst o. destruct os; [reflexivity|discriminate E2].
Qed.
Theorem second p1 p2 : In (deeds p2) (snd (processes (p1 ++ Provider false :: p2))).
Proof.
  induction p1 as [|[n|f] p1 IH]; cbn.
  - pose proof (processes_own p2) as E. destruct (processes p2) as [o os]. cbn in *. subst o. apply in_or_app. right. now left.
  - destruct (processes (p1 ++ Provider false :: p2)) as [o os]. exact IH.
  - destruct (processes (p1 ++ Provider false :: p2)) as [o os]. destruct f; cbn [snd] in *; auto. apply in_or_app. now left.
Qed.
