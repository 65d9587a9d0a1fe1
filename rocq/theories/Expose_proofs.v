(** Proofs of C96. *)
From Coq Require Import String List Arith NArith ZArith Ascii Bool Lia Permutation Sorting.Sorted.
Import ListNotations.
From Verif Require Import OMap_model OMap_proofs UnixSystem_model Registry_model UnixLife_model Config_model Commands_model Commands_spec Commands_proofs Expose_model Expose_spec.
Open Scope list_scope.

(** ** The list of processes *)
Definition pids (w : world) : list Z := map p_pid w.
Lemma get_in pid w p : get pid w = Some p -> In p w /\ p_pid p = pid.
Proof. intros H. apply find_some in H. destruct H as (H & E). apply Z.eqb_eq in E. auto. Qed.
Lemma in_get w p : NoDup (pids w) -> In p w -> get (p_pid p) w = Some p.
Proof.
  induction w as [|q w IH]; cbn; [contradiction|]. intros HN HI. inversion HN as [|? ? H1 H2]; subst. unfold get. cbn.
  destruct HI as [->|HI]; [now rewrite Z.eqb_refl|].
  destruct (Z.eqb_spec (p_pid q) (p_pid p)) as [E|E]; [|apply IH; auto].
  exfalso. apply H1. rewrite E. now apply in_map.
Qed.
Lemma get_none pid w : get pid w = None <-> ~ In pid (pids w).
Proof.
  unfold get, pids. split.
  - intros H HI. apply in_map_iff in HI. destruct HI as (p & E & HI). pose proof (find_none _ _ H p HI) as H1. cbn in H1. apply Z.eqb_neq in H1. congruence.
  - intros H. destruct (find _ w) as [p|] eqn:E; auto. apply find_some in E. destruct E as (HI & E). apply Z.eqb_eq in E. exfalso. apply H. rewrite <- E. now apply in_map.
Qed.
Lemma put_pids q w : pids (put q w) = pids w.
Proof. unfold pids, put. rewrite map_map. apply map_ext. intros p. destruct (Z.eqb_spec (p_pid p) (p_pid q)); auto. Qed.
Lemma get_put_same q w p : get (p_pid q) w = Some p -> get (p_pid q) (put q w) = Some q.
Proof.
  unfold get, put. induction w as [|r w IH]; cbn; [discriminate|].
  destruct (Z.eqb_spec (p_pid r) (p_pid q)) as [E|E]; [now rewrite Z.eqb_refl|].
  apply Z.eqb_neq in E. rewrite E. exact IH.
Qed.
Lemma get_put_other q w pid : pid <> p_pid q -> get pid (put q w) = get pid w.
Proof.
  intros N. unfold get, put. induction w as [|r w IH]; cbn; auto.
  destruct (Z.eqb_spec (p_pid r) (p_pid q)) as [E|E].
  - rewrite E. destruct (Z.eqb_spec (p_pid q) pid) as [E1|E1]; [congruence|exact IH].
  - destruct (Z.eqb_spec (p_pid r) pid) as [E1|E1]; [reflexivity|exact IH].
Qed.
Lemma gone_pids pid w : pids (gone pid w) = filter (fun q => negb (Z.eqb q pid)) (pids w).
Proof. unfold pids, gone. induction w as [|p w IH]; cbn; auto. destruct (negb (p_pid p =? pid)%Z); cbn; now rewrite IH. Qed.
Lemma get_gone_same pid w : get pid (gone pid w) = None.
Proof. apply get_none. rewrite gone_pids, filter_In. intros (_ & H). now rewrite Z.eqb_refl in H. Qed.
Lemma get_gone_other pid q w : q <> pid -> get q (gone pid w) = get q w.
Proof.
  intros N. unfold get, gone. induction w as [|r w IH]; cbn; auto.
  destruct (Z.eqb_spec (p_pid r) pid) as [E|E]; cbn.
  - destruct (Z.eqb_spec (p_pid r) q); [congruence|exact IH].
  - destruct (Z.eqb_spec (p_pid r) q); [reflexivity|exact IH].
Qed.
Lemma get_app pid w p : get pid (w ++ [p]) = match get pid w with Some q => Some q | None => if Z.eqb (p_pid p) pid then Some p else None end.
Proof. unfold get. induction w as [|r w IH]; cbn; auto. destruct (Z.eqb (p_pid r) pid); auto. Qed.

(** ** Serving *)
Lemma serve_free p : p_exposer p = None -> exists t, serve p = Got t.
Proof. intros E. unfold serve. rewrite E. eexists. reflexivity. Qed.
Lemma serve_taken p x : p_exposer p = Some x -> serve p = FTerminate.
Proof. intros E. unfold serve. rewrite E. reflexivity. Qed.

(** ** Histories *)
Lemma run_app a b w : run (a ++ b) w = match run a w with Some w' => run b w' | None => None end.
Proof. revert w. induction a as [|e a IH]; intros w; cbn [app run]; auto. destruct (step e w) as [(w' & o)|]; auto. Qed.
Lemma reached_cons e h w : reached (e :: h) w <-> exists w1 o, reached h w1 /\ step e w1 = Some (w, o).
Proof.
  unfold reached. cbn [rev]. rewrite run_app. split.
  - destruct (run (rev h) world0) as [w1|]; [|discriminate]. cbn [run]. destruct (step e w1) as [(w' & o)|] eqn:E; [|discriminate].
    intros H. injection H as <-. exists w1, o. auto.
  - intros (w1 & o & -> & H). cbn [run]. now rewrite H.
Qed.

(** What a state is, whatever the programs do. *)
Definition fine (w : world) : Prop :=
  NoDup (pids w) /\ forall p, In p w -> (forall x, p_exposer p = Some x -> exists n, x = fill (p_pid p) n) /\ ordered Nat.ltb (p_threads p).
Lemma fine_put q w p : fine w -> get (p_pid q) w = Some p ->
  (forall x, p_exposer q = Some x -> exists n, x = fill (p_pid q) n) -> ordered Nat.ltb (p_threads q) -> fine (put q w).
Proof.
  intros (HN & HF) HG HX HT. split; [now rewrite put_pids|]. intros r HI. unfold put in HI. apply in_map_iff in HI. destruct HI as (r0 & E & HI).
  destruct (Z.eqb_spec (p_pid r0) (p_pid q)) as [E1|E1]; subst r; auto.
Qed.
Lemma fine_gone pid w : fine w -> fine (gone pid w).
Proof. intros (HN & HF). split; [rewrite gone_pids; now apply NoDup_filter|]. intros p HI. apply HF. unfold gone in HI. now apply filter_In in HI. Qed.

Lemma NoDup_snoc {A} (l : list A) a : NoDup l -> ~ In a l -> NoDup (l ++ [a]).
Proof.
  intros H1 H2. apply (Permutation_NoDup (l := a :: l)); [|now constructor]. apply Permutation_cons_append.
Qed.
Lemma step_fine e w w' o : fine w -> step e w = Some (w', o) -> fine w'.
Proof.
  intros HF. destruct e as [pid argv|pid argv|pid|pid name|pid|pid tid name|pid l|pid]; cbn [step].
  - destruct (get pid w) as [p|] eqn:E; [discriminate|]. intros H. injection H as <- _. apply get_none in E. destruct HF as (HN & HF). split.
    + unfold pids. rewrite map_app. cbn. now apply NoDup_snoc.
    + intros p HI. apply in_app_iff in HI. destruct HI as [HI|[<-|[]]]; auto. cbn. split; [discriminate|apply ordered_nil].
  - destruct (get pid w) as [p|] eqn:E; [|discriminate]. intros H. injection H as <- _. destruct (get_in _ _ _ E) as (HI & EP).
    destruct (proj2 HF p HI) as (H1 & H2). apply (fine_put _ _ p); auto. cbn. now rewrite EP.
  - destruct (get pid w) as [p|] eqn:E; [|discriminate]. destruct (get_in _ _ _ E) as (HI & EP). destruct (proj2 HF p HI) as (H1 & H2).
    destruct (p_default p); [intros H; injection H as <- _; auto|].
    destruct (p_argv p); intros H; injection H as <- _; auto. apply (fine_put _ _ p); auto. cbn. now rewrite EP.
  - destruct (get pid w) as [p|] eqn:E; [|discriminate]. destruct (get_in _ _ _ E) as (HI & EP). destruct (proj2 HF p HI) as (H1 & H2).
    destruct (p_default p) as [d|]; [|discriminate]. destruct (serve p); intros H; try discriminate; injection H as <- _; auto using fine_gone.
    apply (fine_put _ _ p); auto; cbn; [now rewrite EP|]. intros x Ex. injection Ex as <-. eauto.
  - destruct (get pid w) as [p|] eqn:E; [|discriminate]. destruct (get_in _ _ _ E) as (HI & EP). destruct (proj2 HF p HI) as (H1 & H2).
    destruct (p_exposer p); [|discriminate]. intros H. injection H as <- _. apply (fine_put _ _ p); auto; cbn; [now rewrite EP|discriminate].
  - destruct (get pid w) as [p|] eqn:E; [|discriminate]. destruct (get_in _ _ _ E) as (HI & EP). destruct (proj2 HF p HI) as (H1 & H2).
    intros H. injection H as <- _. apply (fine_put _ _ p); auto; cbn; [now rewrite EP|]. apply ordered_insert; auto using nat_order.
  - destruct (get pid w) as [p|] eqn:E; [|discriminate]. destruct (get_in _ _ _ E) as (HI & EP). destruct (proj2 HF p HI) as (H1 & H2).
    destruct (gstep l (p_cfg p)); [|discriminate]. intros H. injection H as <- _. apply (fine_put _ _ p); auto. cbn. now rewrite EP.
  - destruct (get pid w) as [p|]; [|discriminate]. intros H. injection H as <- _. now apply fine_gone.
Qed.
Lemma reached_fine h w : reached h w -> fine w.
Proof.
  revert w. induction h as [|e h IH]; intros w H.
  - injection H as <-. split; [constructor|]. intros p [].
  - apply reached_cons in H. destruct H as (w1 & o & H1 & H2). eapply step_fine; eauto.
Qed.

(** ** The servers *)
Lemma in_servers s w : In s (servers w) <-> exists p, In p w /\ to_server p = Some s.
Proof.
  induction w as [|p w IH]; cbn; [split; [contradiction|intros (p & [] & _)]|].
  destruct (to_server p) as [s0|] eqn:E; cbn; rewrite IH; split.
  - intros [<-|(q & H1 & H2)]; [exists p|exists q]; auto.
  - intros (q & [<-|H1] & H2); [left; congruence|right; eauto].
  - intros (q & H1 & H2). exists q. auto.
  - intros (q & [<-|H1] & H2); [congruence|eauto].
Qed.
Lemma server_of p x : p_exposer p = Some x -> exists s, to_server p = Some s /\ sv_endpoints s = Registry_model.introspect (x_registry x) /\ sv_pid s = x_pid x /\ sv_name s = x_name x /\
  sv_threads s = p_threads p /\ prompt s.
Proof. intros E. unfold to_server. rewrite E. eexists. split; [reflexivity|]. cbn. unfold prompt. cbn. auto 12. Qed.
Lemma filled pid n : Registry_model.introspect (x_registry (fill pid n)) = four /\ x_pid (fill pid n) = pid /\ x_name (fill pid n) = n.
Proof. repeat split. Qed.
Lemma server_fine w s : fine w -> In s (servers w) -> prompt s /\ sv_endpoints s = four /\
  exists p n, get (sv_pid s) w = Some p /\ p_exposer p = Some (fill (sv_pid s) n) /\ sv_name s = n /\ sv_threads s = p_threads p.
Proof.
  intros HF HI. apply in_servers in HI. destruct HI as (p & HI & ES). destruct (p_exposer p) as [x|] eqn:EX; [|unfold to_server in ES; rewrite EX in ES; discriminate].
  destruct (server_of p x EX) as (s' & E1 & E2 & E3 & E4 & E5 & E6). replace s' with s in * by congruence. clear s' E1.
  destruct (proj2 HF p HI) as (HX & _). destruct (HX x EX) as (n & ->). destruct (filled (p_pid p) n) as (F1 & F2 & F3).
  rewrite F1 in E2. rewrite F2 in E3. rewrite F3 in E4. split; auto. split; auto. exists p, n. rewrite E3. split; [apply in_get; auto; apply HF|auto].
Qed.
Lemma servers_NoDup w : fine w -> NoDup (map sv_pid (servers w)).
Proof.
  intros HF. pose proof (proj1 HF) as HN. assert (HX : forall p s, In p w -> to_server p = Some s -> sv_pid s = p_pid p).
  { intros p s HI ES. destruct (p_exposer p) as [x|] eqn:EX; [|unfold to_server in ES; rewrite EX in ES; discriminate].
    destruct (server_of p x EX) as (s' & E1 & _ & E3 & _). replace s' with s in * by congruence.
    destruct (proj1 (proj2 HF p HI) x EX) as (n & ->). exact E3. }
  clear HF. induction w as [|p w IH]; cbn; [constructor|]. inversion HN as [|? ? H1 H2]; subst.
  assert (IH' : NoDup (map sv_pid (servers w))). { apply IH; auto. intros q s HI. apply HX. now right. }
  destruct (to_server p) as [s|] eqn:E; auto. cbn. constructor; auto.
  intros HI. apply in_map_iff in HI. destruct HI as (s' & Es & HI). apply in_servers in HI. destruct HI as (q & HI & Eq).
  apply H1. rewrite <- (HX p s (or_introl eq_refl) E), <- Es, (HX q s' (or_intror HI) Eq). now apply in_map.
Qed.

(** ** What the state says of the history *)
Definition agrees (h : list ev) (w : world) (pid : Z) : Prop :=
  match get pid w with
  | None => shown pid h = None
  | Some p => p_exposer p = option_map (fill pid) (shown pid h) /\ forall t, mfind Nat.ltb t (p_threads p) = called pid t h
  end.
(** With [sys.argv] left alone. *)
Definition same_argv (h : list ev) (w : world) (pid : Z) : Prop :=
  forall p, get pid w = Some p -> hd [] (p_argv p) = program pid h /\ forall d, p_default p = Some d -> d = program pid h.

Lemma same_argv_put h e q w p pid : get (p_pid q) w = Some p -> (forall x, program x (e :: h) = program x h) ->
  same_argv h w pid -> p_argv q = p_argv p -> (forall d, p_default q = Some d -> p_default p = Some d \/ d = hd [] (p_argv p)) -> same_argv (e :: h) (put q w) pid.
Proof.
  intros HG HE H E1 E2 r Hr. rewrite HE. destruct (Z.eq_dec pid (p_pid q)) as [E|N].
  - subst pid. rewrite (get_put_same q w p HG) in Hr. injection Hr as <-. destruct (H p HG) as (H1 & H2). rewrite E1. split; auto.
    intros d Hd. destruct (E2 d Hd) as [H3|H3]; auto. congruence.
  - rewrite (get_put_other q w pid N) in Hr. auto.
Qed.
Lemma step_argv e h w w' o : (forall pid a, e <> EArgv pid a) -> (forall pid, same_argv h w pid) -> step e w = Some (w', o) -> forall pid, same_argv (e :: h) w' pid.
Proof.
  intros HA HS H x. destruct e as [pid argv|pid argv|pid|pid name|pid|pid tid name|pid l|pid]; cbn [step] in H.
  - destruct (get pid w) as [p|] eqn:E; [discriminate H|]. injection H as <- _. intros p Hp. rewrite get_app in Hp. cbn [program].
    destruct (Z.eqb_spec pid x) as [->|N].
    + rewrite E in Hp. cbn [p_pid proc0] in Hp. rewrite Z.eqb_refl in Hp. injection Hp as <-. cbn. split; [reflexivity|discriminate].
    + destruct (get x w) as [q|] eqn:Eq; [injection Hp as <-; now apply HS|].
      cbn [p_pid proc0] in Hp. apply Z.eqb_neq in N. rewrite N in Hp. discriminate.
  - exfalso. now apply (HA pid argv).
  - destruct (get pid w) as [p|] eqn:E; [|discriminate H]. destruct (get_in _ _ _ E) as (_ & EP).
    destruct (p_default p) as [d0|] eqn:ED; [injection H as <- _; intros q; apply (HS x)|].
    destruct (p_argv p) as [|a l] eqn:EA; injection H as <- _; [intros q; apply (HS x)|].
    apply (same_argv_put h _ _ w p); auto; cbn; try (now rewrite EP). intros d Hd. injection Hd as <-. right. now rewrite EA.
  - destruct (get pid w) as [p|] eqn:E; [|discriminate H]. destruct (get_in _ _ _ E) as (_ & EP). destruct (p_default p) as [d|] eqn:ED; [|discriminate H].
    destruct (serve p); try discriminate H; injection H as <- _.
    + apply (same_argv_put h _ _ w p); auto; cbn; try (now rewrite EP).
    + intros q; apply (HS x).
    + intros q Hq. cbn [program]. destruct (Z.eq_dec x pid) as [->|N]; [rewrite get_gone_same in Hq; discriminate|].
      rewrite (get_gone_other pid x w N) in Hq. now apply HS.
  - destruct (get pid w) as [p|] eqn:E; [|discriminate H]. destruct (get_in _ _ _ E) as (_ & EP). destruct (p_exposer p); [|discriminate H].
    injection H as <- _. apply (same_argv_put h _ _ w p); auto; cbn; try (now rewrite EP); auto.
  - destruct (get pid w) as [p|] eqn:E; [|discriminate H]. destruct (get_in _ _ _ E) as (_ & EP).
    injection H as <- _. apply (same_argv_put h _ _ w p); auto; cbn; try (now rewrite EP); auto.
  - destruct (get pid w) as [p|] eqn:E; [|discriminate H]. destruct (get_in _ _ _ E) as (_ & EP). destruct (gstep l (p_cfg p)); [|discriminate H].
    injection H as <- _. apply (same_argv_put h _ _ w p); auto; cbn; try (now rewrite EP); auto.
  - destruct (get pid w) as [p|] eqn:E; [|discriminate H]. injection H as <- _. intros q Hq. cbn [program].
    destruct (Z.eq_dec x pid) as [->|N]; [rewrite get_gone_same in Hq; discriminate|].
    rewrite (get_gone_other pid x w N) in Hq. now apply HS.
Qed.
Lemma reached_argv h w : argv_kept h -> reached h w -> forall pid, same_argv h w pid.
Proof.
  revert w. induction h as [|e h IH]; intros w HK H.
  - injection H as <-. intros pid p Hp. discriminate.
  - apply reached_cons in H. destruct H as (w1 & o & H1 & H2). apply (step_argv e h w1 w o); auto.
    + intros pid a ->. apply (HK pid a). now left.
    + apply IH; auto. intros pid a HI. apply (HK pid a). now right.
Qed.

Lemma agrees_put h e q w p pid : fine w -> get (p_pid q) w = Some p -> agrees h w pid ->
  (pid <> p_pid q -> shown pid (e :: h) = shown pid h /\ forall t, called pid t (e :: h) = called pid t h) ->
  (agrees h w (p_pid q) -> p_exposer q = option_map (fill (p_pid q)) (shown (p_pid q) (e :: h)) /\ forall t, mfind Nat.ltb t (p_threads q) = called (p_pid q) t (e :: h)) ->
  agrees (e :: h) (put q w) pid.
Proof.
  intros HF HG H HO HS. unfold agrees. destruct (Z.eq_dec pid (p_pid q)) as [E|N].
  - subst pid. rewrite (get_put_same q w p HG). auto.
  - rewrite (get_put_other q w pid N). destruct (HO N) as (E1 & E2). rewrite E1. unfold agrees in H. destruct (get pid w); auto. destruct H as (H1 & H2). split; auto.
    intros t. now rewrite E2.
Qed.
Lemma agrees_same h e w pid : shown pid (e :: h) = shown pid h -> (forall t, called pid t (e :: h) = called pid t h) -> agrees h w pid -> agrees (e :: h) w pid.
Proof.
  intros E1 E2 H. unfold agrees in *. rewrite E1. destruct (get pid w); auto. destruct H as (H1 & H2). split; auto. intros t. now rewrite E2.
Qed.
Lemma agrees_at h w pid p : get pid w = Some p -> agrees h w pid -> p_exposer p = option_map (fill pid) (shown pid h) /\ forall t, mfind Nat.ltb t (p_threads p) = called pid t h.
Proof. intros E H. unfold agrees in H. now rewrite E in H. Qed.
Lemma neq_eqb (a b : Z) : a <> b -> Z.eqb b a = false.
Proof. intros H. apply Z.eqb_neq. congruence. Qed.

Lemma step_agrees e h w w' o : fine w -> (forall pid name, e = EExpose pid name -> shown pid h = None) ->
  (forall pid, e = EExpose pid None -> same_argv h w pid) ->
  (forall pid, agrees h w pid) -> step e w = Some (w', o) -> forall pid, agrees (e :: h) w' pid.
Proof.
  intros HF HO HS HA H x. destruct e as [pid argv|pid argv|pid|pid name|pid|pid tid name|pid l|pid]; cbn [step] in H.
  - destruct (get pid w) as [p|] eqn:E; [discriminate H|]. injection H as <- _. unfold agrees. rewrite get_app. pose proof (HA x) as Hx. unfold agrees in Hx. cbn [shown].
    destruct (get x w) as [q|] eqn:Eq.
    + assert (N : x <> pid) by congruence. destruct Hx as (H1 & H2). split; auto. intros t. cbn [called]. now rewrite (neq_eqb x pid N).
    + cbn [p_pid proc0]. destruct (Z.eqb_spec pid x) as [->|N]; auto. cbn. rewrite Hx, Z.eqb_refl. split; reflexivity.
  - destruct (get pid w) as [p|] eqn:E; [|discriminate H]. destruct (get_in _ _ _ E) as (_ & EP). injection H as <- _.
    apply (agrees_put h _ _ w p); auto; cbn [set_argv p_pid]; try (now rewrite EP). rewrite EP. intros HP. exact (agrees_at _ _ _ _ E HP).
  - destruct (get pid w) as [p|] eqn:E; [|discriminate H]. destruct (get_in _ _ _ E) as (_ & EP).
    destruct (p_default p) as [d0|]; [injection H as <- _; now apply agrees_same|].
    destruct (p_argv p) as [|a l]; injection H as <- _; [now apply agrees_same|].
    apply (agrees_put h _ _ w p); auto; cbn [set_default p_pid]; [now rewrite EP|]. rewrite EP. intros HP. exact (agrees_at _ _ _ _ E HP).
  - destruct (get pid w) as [p|] eqn:E; [|discriminate H]. destruct (get_in _ _ _ E) as (_ & EP). destruct (p_default p) as [d|] eqn:ED; [|discriminate H].
    pose proof (HO pid name eq_refl) as HN. destruct (agrees_at _ _ _ _ E (HA pid)) as (HX & HT). rewrite HN in HX. cbn in HX.
    destruct (serve_free p HX) as (t0 & ES). rewrite ES in H. injection H as <- _.
    apply (agrees_put h _ _ w p); auto; cbn [set_exposer p_pid]; [now rewrite EP| |].
    + intros N. cbn [shown called]. rewrite EP in N. now rewrite (neq_eqb x pid N).
    + intros _. rewrite EP. cbn [p_exposer p_threads shown called]. rewrite Z.eqb_refl. split; [|exact HT]. cbn [option_map].
      destruct name as [n|]; [reflexivity|]. destruct (HS pid eq_refl p E) as (_ & HD). now rewrite (HD d ED).
  - destruct (get pid w) as [p|] eqn:E; [|discriminate H]. destruct (get_in _ _ _ E) as (_ & EP). destruct (p_exposer p); [|discriminate H].
    injection H as <- _. apply (agrees_put h _ _ w p); auto; cbn [set_exposer p_pid]; [now rewrite EP| |].
    + intros N. cbn [shown called]. rewrite EP in N. now rewrite (neq_eqb x pid N).
    + intros _. rewrite EP. cbn [p_exposer p_threads shown called]. rewrite Z.eqb_refl. split; [reflexivity|]. exact (proj2 (agrees_at _ _ _ _ E (HA pid))).
  - destruct (get pid w) as [p|] eqn:E; [|discriminate H]. destruct (get_in _ _ _ E) as (HI & EP).
    injection H as <- _. apply (agrees_put h _ _ w p); auto; cbn [set_threads p_pid]; [now rewrite EP| |].
    + intros N. rewrite EP in N. cbn [shown called]. rewrite (neq_eqb x pid N). cbn [andb]. auto.
    + intros _. rewrite EP. cbn [set_threads p_exposer p_threads shown called]. rewrite Z.eqb_refl. cbn [andb]. destruct (agrees_at _ _ _ _ E (HA pid)) as (H1 & H2). split; auto.
      intros t. destruct (Nat.eqb_spec tid t) as [->|N]; [apply find_insert_same; apply nat_order|].
      rewrite (find_insert_other _ nat_order); [apply H2|exact (proj2 (proj2 HF p HI))|congruence].
  - destruct (get pid w) as [p|] eqn:E; [|discriminate H]. destruct (get_in _ _ _ E) as (_ & EP). destruct (gstep l (p_cfg p)); [|discriminate H].
    injection H as <- _. apply (agrees_put h _ _ w p); auto; cbn [set_cfg p_pid]; [now rewrite EP|]. rewrite EP. intros HP. exact (agrees_at _ _ _ _ E HP).
  - destruct (get pid w) as [p|] eqn:E; [|discriminate H]. injection H as <- _. unfold agrees. cbn [shown].
    destruct (Z.eq_dec x pid) as [->|N]; [now rewrite get_gone_same, Z.eqb_refl|].
    rewrite (get_gone_other pid x w N), (neq_eqb x pid N). exact (HA x).
Qed.
Lemma reached_agrees h w : once h -> argv_kept h \/ all_named h -> reached h w -> forall pid, agrees h w pid.
Proof.
  revert w. induction h as [|e h IH]; intros w HO HK H.
  - injection H as <-. intros pid. reflexivity.
  - apply reached_cons in H. destruct H as (w1 & o & H1 & H2).
    assert (HK' : argv_kept h \/ all_named h).
    { destruct HK as [HK|HK]; [left|right]; [intros pid a HI; apply (HK pid a)|intros pid HI; apply (HK pid)]; now right. }
    apply (step_agrees e h w1 w o); auto.
    + eapply reached_fine; eauto.
    + intros pid name ->. apply HO.
    + intros pid ->. destruct HK as [HK|HK]; [|exfalso; apply (HK pid); now left].
      destruct HK' as [HK'|HK'].
      * apply reached_argv; auto.
      * apply reached_argv; auto. intros q a HI. apply (HK q a). now right.
    + apply IH; auto. destruct e; cbn in HO; auto. apply HO.
Qed.

(** ** The commands *)
Theorem exposed h w l : once h -> argv_kept h \/ all_named h -> reached h w -> Permutation (servers w) l ->
  exists r, discover l = Some r /\ StronglySorted (fun x y => (fst (fst (fst x)) <= fst (fst (fst y)))%Z) r /\ NoDup (map (fun d => fst (fst (fst d))) r) /\
    (forall pid name, shown pid h = Some name -> exists d, In d r /\ listed_as pid name h d) /\
    (forall d, In d r -> exists pid name, shown pid h = Some name /\ listed_as pid name h d).
Proof.
  intros HO HK HR HP. pose proof (reached_fine h w HR) as HF. pose proof (reached_agrees h w HO HK HR) as HA.
  assert (HS : forall s, In s l -> prompt s /\ sv_endpoints s = four /\
    exists p n, get (sv_pid s) w = Some p /\ p_exposer p = Some (fill (sv_pid s) n) /\ sv_name s = n /\ sv_threads s = p_threads p).
  { intros s HI. apply server_fine; auto. eapply Permutation_in; [symmetry; exact HP|exact HI]. }
  destruct (discovered l) as (r & E & HSo & l' & HP' & HD).
  { apply Forall_forall. intros s HI. now apply HS. }
  { apply Forall_forall. intros s HI. destruct (HS s HI) as (_ & E & _). unfold introduces, serves. rewrite E. cbn. auto. }
  { eapply Permutation_NoDup; [apply Permutation_map; exact HP|now apply servers_NoDup]. }
  exists r. split; auto. split; auto.
  assert (HN : NoDup (map sv_pid l')).
  { eapply Permutation_NoDup; [apply Permutation_map; transitivity l; [exact HP|exact HP']|now apply servers_NoDup]. }
  assert (Hone : forall s d, In s l -> data_true s d -> exists name, shown (sv_pid s) h = Some name /\ listed_as (sv_pid s) name h d).
  { intros s d HI Hd. destruct (HS s HI) as (_ & E4 & p & n & EG & EX & EN & ET). red in Hd. subst d.
    destruct (agrees_at _ _ _ _ EG (HA (sv_pid s))) as (A1 & A2). rewrite EX in A1. destruct (shown (sv_pid s) h) as [name|]; [|discriminate A1].
    exists name. split; auto. cbn [listed_as]. split; auto. split.
    - injection A1 as A1. congruence.
    - split; auto. rewrite ET. intros t c. rewrite <- A2. destruct (get_in _ _ _ EG) as (HIp & _). pose proof (proj2 (proj2 HF p HIp)) as HOr. split.
      + apply in_find; auto using nat_order.
      + apply find_in. apply nat_order. }
  split; [|split].
  - clear - HD HN. induction HD as [|s d l' r Hd HD IH]; cbn; [constructor|]. cbn in HN. inversion HN as [|? ? H1 H2]; subst.
    assert (E : forall s d, data_true s d -> fst (fst (fst d)) = sv_pid s) by (intros s' d' ->; reflexivity).
    assert (EM : map (fun d => fst (fst (fst d))) r = map sv_pid l').
    { clear - HD E. induction HD as [|s d l' r Hd HD IH]; cbn [map]; [reflexivity|]. rewrite IH. f_equal. exact (E s d Hd). }
    constructor; [|now apply IH]. rewrite EM. intros HX. apply H1. rewrite <- (E s d Hd). exact HX.
  - intros pid name Hn. pose proof (HA pid) as Hp. unfold agrees in Hp. destruct (get pid w) as [p|] eqn:EG; [|congruence].
    destruct Hp as (EX & _). rewrite Hn in EX. cbn [option_map] in EX. destruct (server_of p _ EX) as (s & Es & _ & E3 & _).
    destruct (filled pid name) as (_ & F2 & _). rewrite F2 in E3.
    destruct (get_in _ _ _ EG) as (HIp & _). assert (HIs : In s l).
    { eapply Permutation_in; [exact HP|]. apply in_servers. exists p. auto. }
    assert (HIs' : In s l') by (eapply Permutation_in; [exact HP'|exact HIs]).
    assert (exists d, In d r /\ data_true s d) as (d & HId & Hd).
    { clear - HD HIs'. induction HD as [|s0 d0 l0 r0 H0 HD IH]; [contradiction|]. destruct HIs' as [->|HI]; [exists d0; cbn; auto|].
      destruct (IH HI) as (d & H1 & H2). exists d. cbn. auto. }
    destruct (Hone s d HIs Hd) as (name' & H1 & H2). exists d. split; auto. rewrite E3 in H1, H2. replace name with name' by congruence. exact H2.
  - intros d HId. assert (exists s, In s l' /\ data_true s d) as (s & HIs & Hd).
    { clear - HD HId. induction HD as [|s0 d0 l0 r0 H0 HD IH]; [contradiction|]. destruct HId as [->|HI]; [exists s0; cbn; auto|].
      destruct (IH HI) as (s & H1 & H2). exists s. cbn. auto. }
    assert (HIl : In s l) by (eapply Permutation_in; [symmetry; exact HP'|exact HIs]).
    destruct (Hone s d HIl Hd) as (name & H1 & H2). eauto.
Qed.

(** [trace_configure] does nothing to such a process, and says nothing of it. *)
Lemma configure_skips a : forall l, Forall (fun s => sv_endpoints s = four) l ->
  configure a (map (fun s => (s, filter (fun e => has e [Commands_model.introspect; process_info; trace_configurator]) (sv_endpoints s))) l) = (l, Some ([], 0)).
Proof.
  induction 1 as [|s l E HF IH]; [reflexivity|]. cbn [map configure]. rewrite IH. unfold configure1. rewrite E. reflexivity.
Qed.
Theorem not_configured h w a l : reached h w -> Permutation (servers w) l -> trace_configure a l = (l, Some (0, [])).
Proof.
  intros HR HP. pose proof (reached_fine h w HR) as HF.
  assert (HS : Forall (fun s => sv_first s = InTime /\ sv_endpoints s = four) l).
  { apply Forall_forall. intros s HI. destruct (server_fine w s HF) as ((H1 & _) & H2 & _); auto. eapply Permutation_in; [symmetry; exact HP|exact HI]. }
  unfold trace_configure. rewrite manage_ok.
  - rewrite configure_skips; [reflexivity|]. eapply Forall_impl; [|exact HS]. cbn. intros s H. apply H.
  - eapply Forall_impl; [|exact HS]. cbn. intros s (H1 & H2). split; auto. unfold serves. rewrite H2. cbn. auto.
Qed.

(** A second exposer. *)
Theorem second_aborts h w pid name again : once h -> argv_kept h \/ all_named h -> reached h w -> shown pid h = Some name ->
  (exists w' o, step (EExpose pid again) w = Some (w', o)) ->
  step (EExpose pid again) w = Some (gone pid w, Aborted).
Proof.
  intros HO HK HR HS (w' & o & H). pose proof (reached_agrees h w HO HK HR pid) as HA. unfold agrees in HA. cbn [step] in *.
  destruct (get pid w) as [p|]; [|discriminate H]. destruct (p_default p); [|discriminate H]. destruct HA as (HX & _). rewrite HS in HX. cbn [option_map] in HX.
  now rewrite (serve_taken p _ HX).
Qed.
