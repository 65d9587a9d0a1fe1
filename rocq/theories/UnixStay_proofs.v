(** A connection lasts as long as both sides (C05). *)
From Coq Require Import List Arith NArith Ascii Bool Lia.
Import ListNotations.
From Verif Require Import Protocol_model UnixSystem_model UnixSystem_spec UnixSystem_proofs.

Definition full (i : item) : Prop := match i with Full _ _ => True | _ => False end.
Definition good (s : sys) (c : nat) : Prop :=
  s_up s = true -> Forall full (c_in (s_cl s c)) /\ Forall full (c_out (s_cl s c)) /\ (c_open (s_cl s c) = true -> s_conn s c <> Closed).

Lemma process_out m g ua x : Inv1 x -> Forall full (c_out x) -> Forall full (c_out (process m g ua x)).
Proof.
  intros I F. destruct (process_processed m g ua x I); cbn; auto. apply Forall_app. split; [exact F|]. constructor; [exact Logic.I|constructor].
Qed.
Lemma up_back l s s' : step l s = Some s' -> s_up s' = true -> s_up s = true.
Proof.
  destruct l as [c'|c'|c' n|n|c' n d|c' r ok|c' r|c' r|c' ua|c'|c' n d|c' i|c'|c' ans|c'|n d| | |c' d j]; cbn [step]; intros E U;
  repeat match type of E with context [match ?y with _ => _ end] => destruct y eqn:?; try discriminate E end; injection E as <-; cbn in U; congruence.
Qed.
Lemma good_step c l s s' : Inv1 (s_cl s c) -> uses_library c l -> step l s = Some s' -> good s c ->
  good s' c /\ (s_up s' = true -> l <> CliClose c -> c_open (s_cl s c) = true -> c_open (s_cl s' c) = true).
Proof.
  intros I L E G.
  assert (W : s_up s' = true -> s_up s = true) by exact (up_back _ _ _ E).
  assert (Q : s_up s' = true -> Forall full (c_in (s_cl s' c)) /\ Forall full (c_out (s_cl s' c)) /\
     (c_open (s_cl s' c) = true -> s_conn s' c <> Closed) /\ (l <> CliClose c -> c_open (s_cl s c) = true -> c_open (s_cl s' c) = true)).
  2:{ split; [intros U; destruct (Q U) as (A & B & C & _); auto|intros U; destruct (Q U) as (_ & _ & _ & D); exact D]. }
  intros U. specialize (W U). destruct (G W) as (A & B & C). clear G.
  destruct l as [c'|c'|c' n|n|c' n d|c' r ok|c' r|c' r|c' ua|c'|c' n d|c' i|c'|c' ans|c'|n d| | |c' d j]; cbn [step] in E.
  - destruct (c_born (s_cl s c') || negb (s_up s)); [discriminate E|]. injection E as <-. cbn. destruct (Nat.eq_dec c' c) as [->|H].
    + rewrite !upd_same. cbn. repeat split; auto; discriminate.
    + rewrite !upd_other by (apply not_eq_sym; exact H). auto.
  - rewrite W in E. destruct (s_conn s c') eqn:K; try discriminate E. injection E as <-. cbn. destruct (Nat.eq_dec c' c) as [->|H].
    + rewrite !upd_same. repeat split; auto; discriminate.
    + rewrite !upd_other by (apply not_eq_sym; exact H). auto.
  - injection E as <-. cbn. destruct (Nat.eq_dec c' c) as [->|H]; [rewrite !upd_same; auto|rewrite !upd_other by (apply not_eq_sym; exact H); auto].
  - injection E as <-. auto.
  - destruct (negb (c_born (s_cl s c'))); [discriminate E|]. injection E as <-. cbn.
    destruct (Nat.eq_dec c' c) as [->|H]; [rewrite !upd_same; auto|rewrite !upd_other by (apply not_eq_sym; exact H); auto].
  - destruct (nth_error (c_reqs (s_cl s c')) r) as [q|]; [|discriminate E]. destruct (r_stage q); try discriminate E.
    destruct (c_open (s_cl s c') && ok); injection E as <-; cbn;
    (destruct (Nat.eq_dec c' c) as [->|H]; [rewrite !upd_same; cbn|rewrite !upd_other by (apply not_eq_sym; exact H)]); auto.
    repeat split; auto. apply Forall_app. split; [exact B|]. constructor; [exact Logic.I|constructor].
  - destruct (nth_error (c_reqs (s_cl s c')) r) as [q|]; [|discriminate E]. destruct (r_stage q); try discriminate E. injection E as <-. cbn.
    destruct (Nat.eq_dec c' c) as [->|H]; [rewrite !upd_same; auto|rewrite !upd_other by (apply not_eq_sym; exact H); auto].
  - destruct (nth_error (c_reqs (s_cl s c')) r) as [q|]; [|discriminate E]. destruct (in_call q); [discriminate E|]. injection E as <-. cbn.
    destruct (Nat.eq_dec c' c) as [->|H]; [rewrite !upd_same; auto|rewrite !upd_other by (apply not_eq_sym; exact H); auto].
  - destruct (client_recv (eof_for s c') ua (s_cl s c')) as [x|] eqn:R; [|discriminate E]. injection E as <-. cbn.
    destruct (Nat.eq_dec c' c) as [->|H]; [rewrite !upd_same|rewrite !upd_other by (apply not_eq_sym; exact H); auto].
    unfold client_recv in R. destruct (negb (c_run (s_cl s c))) eqn:Rn; [discriminate R|].
    destruct (c_in (s_cl s c)) as [|[m g|m|] rr] eqn:In0.
    + unfold eof_for in R. rewrite W in R. cbn [negb orb] in R. destruct (s_conn s c) eqn:K; try discriminate R. injection R as <-.
      assert (O : c_open (s_cl s c) = false) by (destruct (c_open (s_cl s c)) eqn:O; [destruct (C eq_refl eq_refl)|reflexivity]).
      assert (J : Inv1 (set_flags (c_born (s_cl s c)) false false (c_term (s_cl s c)) (s_cl s c))) by (eapply Inv1_ext; [..|exact I]; reflexivity).
      destruct (process_fields msg0 GRaw ua _ J) as (F1 & F2 & F3 & F4 & F5 & F6). rewrite F1, F3. cbn. rewrite In0.
      split; [constructor|]. split; [apply process_out; [exact J|exact B]|]. split; [discriminate|]. intros _ X. congruence.
    + injection R as <-. assert (J : Inv1 (set_in rr (s_cl s c))) by (eapply Inv1_ext; [..|exact I]; reflexivity).
      destruct (process_fields m g ua _ J) as (F1 & F2 & F3 & F4 & F5 & F6). rewrite F1, F3. cbn. inversion A; subst.
      split; [assumption|]. split; [apply process_out; [exact J|exact B]|]. split; auto.
    + exfalso. inversion A; subst. assumption.
    + exfalso. inversion A; subst. assumption.
  - injection E as <-. cbn. destruct (Nat.eq_dec c' c) as [->|H]; [rewrite !upd_same; auto|rewrite !upd_other by (apply not_eq_sym; exact H); auto].
  - destruct (c_run (s_cl s c') && c_open (s_cl s c')); [|discriminate E]. injection E as <-. cbn.
    destruct (Nat.eq_dec c' c) as [->|H]; [rewrite !upd_same; cbn|rewrite !upd_other by (apply not_eq_sym; exact H); auto].
    repeat split; auto. apply Forall_app. split; [exact B|]. constructor; [exact Logic.I|constructor].
  - destruct (c_open (s_cl s c')); [|discriminate E]. injection E as <-. cbn. cbn in L. rewrite !upd_other by (apply not_eq_sym; exact L). auto.
  - destruct (negb (c_born (s_cl s c')) || existsb in_call (c_reqs (s_cl s c'))); [discriminate E|]. injection E as <-. cbn.
    destruct (Nat.eq_dec c' c) as [->|H]; [rewrite !upd_same; cbn|rewrite !upd_other by (apply not_eq_sym; exact H); auto].
    split; [constructor|]. split; [exact B|]. split; [discriminate|]. intros X. destruct (X eq_refl).
  - rewrite W in E. destruct (s_conn s c') eqn:K; try discriminate E. destruct (c_out (s_cl s c')) as [|[m g|m|] rr] eqn:Out; [discriminate E| | |].
    + assert (P : forall d, c' = c -> Forall full (c_in (push_in (Full {| req_id := req_id m; ep_name := ep_name m; payload := d |} GAns) (set_out rr (s_cl s c)))) /\
          Forall full (c_out (push_in (Full {| req_id := req_id m; ep_name := ep_name m; payload := d |} GAns) (set_out rr (s_cl s c)))) /\
          c_open (push_in (Full {| req_id := req_id m; ep_name := ep_name m; payload := d |} GAns) (set_out rr (s_cl s c))) = c_open (s_cl s c)).
      { intros d ->. rewrite Out in B. inversion B; subst. unfold push_in. cbn [c_open set_out]. destruct (c_open (s_cl s c)) eqn:O; cbn; auto.
        split; [|auto]. apply Forall_app. split; [exact A|]. constructor; [exact Logic.I|constructor]. }
      destruct (mem (ep_name m) (s_eps s)); [destruct ans as [d|]|]; injection E as <-; cbn;
      (destruct (Nat.eq_dec c' c) as [->|H]; [rewrite !upd_same|rewrite !upd_other by (apply not_eq_sym; exact H); auto]).
      * destruct (P d eq_refl) as (P1 & P2 & P3). rewrite P3. auto.
      * cbn. rewrite Out in B. inversion B; subst. auto.
      * cbn. rewrite Out in B. inversion B; subst. auto.
    + injection E as <-. cbn. destruct (Nat.eq_dec c' c) as [->|H]; [|rewrite !upd_other by (apply not_eq_sym; exact H); auto].
      exfalso. rewrite Out in B. inversion B; subst. assumption.
    + injection E as <-. cbn. destruct (Nat.eq_dec c' c) as [->|H]; [|rewrite !upd_other by (apply not_eq_sym; exact H); auto].
      exfalso. rewrite Out in B. inversion B; subst. assumption.
  - rewrite W in E. destruct (s_conn s c') eqn:K; try discriminate E. destruct (c_open (s_cl s c')) eqn:O; [discriminate E|]. injection E as <-. cbn.
    destruct (Nat.eq_dec c' c) as [->|H]; [rewrite !upd_same; repeat split; auto; congruence|rewrite !upd_other by (apply not_eq_sym; exact H); auto].
  - injection E as <-. auto.
  - rewrite W in E. cbn [negb] in E. destruct (rev (s_queue s)) as [|[n d] rq]; [discriminate E|]. injection E as <-. cbn.
    destruct (is_accepted (s_conn s c)); [|auto]. unfold push_in. destruct (c_open (s_cl s c)) eqn:O; cbn; [split; [|rewrite O; auto]|rewrite O; auto].
    apply Forall_app. split; [exact A|]. constructor; [exact Logic.I|constructor].
  - rewrite W in E. injection E as <-. discriminate U.
  - rewrite W in E. destruct (s_conn s c') eqn:K; try discriminate E. destruct (c_out (s_cl s c')) as [|[m g|m|] rr]; try discriminate E.
    destruct (mem (ep_name m) (s_eps s) && (j <? length d)); [|discriminate E].
    apply (f_equal (option_map s_up)) in E. cbn [option_map with_up s_up] in E. rewrite U in E. discriminate E.
Qed.
Lemma good_reached c s : reached (uses_library c) s -> good s c.
Proof.
  intros R. refine (reached_ind (uses_library c) (fun s => good s c) _ _ s R).
  - intros _. cbn. repeat split; try constructor. discriminate.
  - intros s0 l s1 R0 G L E. exact (proj1 (good_step c l s0 s1 (Inv1_reached _ _ c R0) L E G)).
Qed.
Lemma stays_connected c ls : forall s s', reached (uses_library c) s -> Forall (uses_library c) ls -> run ls s = Some s' -> s_up s' = true ->
  ~ In (CliClose c) ls -> c_open (s_cl s c) = true -> c_open (s_cl s' c) = true /\ s_conn s' c <> Closed.
Proof.
  induction ls as [|l ls IH]; intros s s' R F E U N O; cbn [run] in E.
  - injection E as <-. split; [exact O|]. exact (proj2 (proj2 (good_reached _ _ R U)) O).
  - destruct (step l s) as [s1|] eqn:E1; [|discriminate E]. inversion F; subst.
    assert (U1 : s_up s1 = true).
    { clear - E U. revert s1 E. induction ls as [|a ls IH]; intros s1 E; cbn [run] in E; [injection E as ->; exact U|].
      destruct (step a s1) as [s2|] eqn:E2; [|discriminate E]. exact (up_back _ _ _ E2 (IH _ E)). }
    refine (IH s1 s' (reached_step _ _ _ _ R H1 E1) H2 E U _ _).
    + intros X. apply N. right. exact X.
    + apply (proj2 (good_step c l s s1 (Inv1_reached _ _ c R) H1 E1 (good_reached _ _ R)) U1); [|exact O]. intros ->. apply N. left. reflexivity.
Qed.

(** The hypotheses can be met: a client asks and is answered, while another one comes, sends half a message and goes. *)
Definition stay_a : list label := [Connect 0; Accept 0; AddServerEp []].
Definition stay_b : list label :=
  [Connect 1; Accept 1; CliRaw 1 Bad; SrvRecv 1 None; CliRecv 1 None; ReqTake 0 [] []; ReqSend 0 0 true; ReqBook 0 0;
   MakeBcast [] []; DispBcast; SrvRecv 0 (Some []); CliRecv 0 None; CliRecv 0 None].
Lemma stay_runs : match run stay_a sys0 with
  | Some s => match run stay_b s with
              | Some s' => s_up s' && c_open (s_cl s 0) && match s_conn s' 1 with Closed => true | _ => false end && negb (c_open (s_cl s' 1))
              | None => false
              end
  | None => false
  end = true.
Proof. vm_compute. reflexivity. Qed.
Example stays_example : exists s s', run stay_a sys0 = Some s /\ run stay_b s = Some s' /\ Forall (uses_library 0) (stay_a ++ stay_b) /\
  s_up s' = true /\ ~ In (CliClose 0) stay_b /\ c_open (s_cl s 0) = true /\ s_conn s' 1 = Closed /\ c_open (s_cl s' 1) = false.
Proof.
  pose proof stay_runs as E. destruct (run stay_a sys0) as [s|]; [|discriminate E]. destruct (run stay_b s) as [s'|] eqn:E'; [|discriminate E].
  exists s, s'. apply andb_prop in E. destruct E as [E E4]. apply andb_prop in E. destruct E as [E E3]. apply andb_prop in E. destruct E as [E1 E2].
  split; [reflexivity|]. split; [exact E'|]. split; [repeat constructor; discriminate|]. split; [exact E1|].
  split; [intros H; cbn in H; repeat (destruct H as [H|H]; [discriminate H|]); exact H|]. split; [exact E2|].
  split; [destruct (s_conn s' 1); try discriminate E3; reflexivity|]. apply negb_true_iff in E4. exact E4.
Qed.
