(** Proofs for C105. *)
From Coq Require Import List Arith NArith Bool Lia.
Import ListNotations.
From Verif Require Import Protocol_model UnixSystem_model UnixSystem_spec UnixSystem_proofs Linear_model Linear_spec.

Lemma some_f {A B} (f : A -> B) a b : Some a = Some b -> f b = f a.
Proof. intros E. injection E as ->. reflexivity. Qed.

Section Proofs.
Context {St Op : Type}.
Variable handle : bytes -> bytes -> St -> St * result.
Variable own : Op -> St -> St.
Notation lstep := (lstep handle own).
Notation lrun := (lrun handle own).
Notation legal := (legal handle own).
Notation entry := (entry Op).

(** ** The order: that of the calls *)
Definition did (l : llabel Op) (s : lsys St) : list entry :=
  match l with
  | Net _ => []
  | Serve c | Die c _ => match next_call c (l_net s) with Some m => [Call c m (snd (handle (ep_name m) (payload m) (l_state s)))] | None => [] end
  | Own o => [Did o]
  end.
Fixpoint trace (ls : list (llabel Op)) (s : lsys St) : list entry :=
  match ls with
  | [] => []
  | l :: r => did l s ++ match lstep l s with Some s' => trace r s' | None => [] end
  end.
Lemma lrun_app a : forall b s, lrun (a ++ b) s = match lrun a s with Some s' => lrun b s' | None => None end.
Proof. induction a as [|l a IH]; intros b s; [reflexivity|]. cbn [app Linear_model.lrun]. destruct (lstep l s); [apply IH|reflexivity]. Qed.
Lemma trace_app a : forall b s s1, lrun a s = Some s1 -> trace (a ++ b) s = trace a s ++ trace b s1.
Proof.
  induction a as [|l a IH]; intros b s s1 H; cbn [Linear_model.lrun] in H; [injection H as <-; reflexivity|]. cbn [app trace]. destruct (lstep l s) as [s2|]; [|discriminate H].
  rewrite (IH b s2 s1 H), app_assoc. reflexivity.
Qed.

Lemma on_net_some (o : option sys) (st : St) s' : on_net o st = Some s' -> o = Some (l_net s') /\ st = l_state s'.
Proof. destruct o; [|discriminate]. intros E. injection E as <-. auto. Qed.
(** What a step is to the transports, to the state and to the calls. *)
Lemma step_case l s s' : lstep l s = Some s' ->
  (exists a, l = Net a /\ serving a = false /\ step a (l_net s) = Some (l_net s') /\ l_state s' = l_state s) \/
  (exists c m d, (l = Serve c) /\ next_call c (l_net s) = Some m /\ handle (ep_name m) (payload m) (l_state s) = (l_state s', Answer d) /\ step (SrvRecv c (Some d)) (l_net s) = Some (l_net s')) \/
  (exists c m, l = Serve c /\ next_call c (l_net s) = Some m /\ handle (ep_name m) (payload m) (l_state s) = (l_state s', NoAnswer) /\ step (SrvRecv c None) (l_net s) = Some (l_net s')) \/
  (exists c m, l = Serve c /\ next_call c (l_net s) = Some m /\ handle (ep_name m) (payload m) (l_state s) = (l_state s', Throws) /\ step SrvCrash (l_net s) = Some (l_net s')) \/
  (exists c, l = Serve c /\ next_call c (l_net s) = None /\ step (SrvRecv c None) (l_net s) = Some (l_net s') /\ l_state s' = l_state s) \/
  (exists c m d j, l = Die c j /\ next_call c (l_net s) = Some m /\ handle (ep_name m) (payload m) (l_state s) = (l_state s', Answer d) /\ step (SrvCrashSending c d j) (l_net s) = Some (l_net s')) \/
  (exists o, l = Own o /\ s_up (l_net s) = true /\ l_net s' = l_net s /\ l_state s' = own o (l_state s)).
Proof.
  intros H. destruct l as [a|c|c j|o]; cbn [Linear_model.lstep] in H.
  - destruct (serving a) eqn:E; [discriminate H|]. apply on_net_some in H. left. exists a. intuition.
  - destruct (next_call c (l_net s)) as [m|] eqn:Nx.
    + destruct (handle (ep_name m) (payload m) (l_state s)) as [st [d| |]] eqn:Hd; apply on_net_some in H; destruct H as (H & ->); right; [left|right; left|right; right; left].
      * exists c, m, d. auto. * exists c, m. auto. * exists c, m. auto.
    + apply on_net_some in H. destruct H as (H & E). do 4 right. left. exists c. auto.
  - destruct (next_call c (l_net s)) as [m|] eqn:Nx; [|discriminate H]. destruct (handle (ep_name m) (payload m) (l_state s)) as [st [d| |]] eqn:Hd; try discriminate H.
    apply on_net_some in H. destruct H as (H & ->). do 5 right. left. exists c, m, d, j. auto.
  - destruct (s_up (l_net s)) eqn:U; [|discriminate H]. injection H as <-. do 6 right. exists o. auto.
Qed.

Lemma did_legal l s s' : lstep l s = Some s' -> forall o st, legal (l_state s') o st -> legal (l_state s) (did l s ++ o) st.
Proof.
  intros H o st L. destruct (step_case _ _ _ H) as [(a & -> & _ & _ & E)|[(c & m & d & -> & N & Hd & _)|[(c & m & -> & N & Hd & _)|[(c & m & -> & N & Hd & _)|[(c & -> & N & _ & E)|[(c & m & d & j & -> & N & Hd & _)|(op & -> & _ & _ & E)]]]]]]; cbn [did];
    try rewrite N; try rewrite Hd; cbn [snd app]; try (eapply le_call; eassumption); try (rewrite E in L; exact L).
  apply le_did. rewrite <- E. exact L.
Qed.
Lemma trace_legal ls : forall s s', lrun ls s = Some s' -> legal (l_state s) (trace ls s) (l_state s').
Proof.
  induction ls as [|l ls IH]; intros s s' H; cbn [Linear_model.lrun] in H; [injection H as <-; constructor|]. cbn [trace]. destruct (lstep l s) as [s1|] eqn:E; [|discriminate H].
  apply (did_legal _ _ _ E). exact (IH _ _ H).
Qed.
Lemma dids_app a b : dids (Op := Op) (a ++ b) = dids a ++ dids b. Proof. apply flat_map_app. Qed.
Lemma trace_dids ls : forall s s', lrun ls s = Some s' -> dids (trace ls s) = own_ops ls.
Proof.
  induction ls as [|l ls IH]; intros s s' H; [reflexivity|]. cbn [Linear_model.lrun] in H. cbn [trace]. destruct (lstep l s) as [s1|] eqn:E; [|discriminate H].
  rewrite dids_app, (IH _ _ H). unfold own_ops. cbn [flat_map]. f_equal. destruct l; cbn [did]; try reflexivity; destruct (next_call c (l_net s)); reflexivity.
Qed.

Lemma net_run ls : forall s s', lrun ls s = Some s' -> exists us, run us (l_net s) = Some (l_net s') /\ forall c, Forall (fair c) ls -> Forall (fair_to c) us.
Proof.
  induction ls as [|l ls IH]; intros s s' H; cbn [Linear_model.lrun] in H; [injection H as <-; exists []; split; [reflexivity|constructor]|].
  destruct (lstep l s) as [s1|] eqn:E; [|discriminate H]. destruct (IH _ _ H) as (us & R & F).
  assert (K : exists u, run u (l_net s) = Some (l_net s1) /\ forall c, fair c l -> Forall (fair_to c) u).
  { destruct (step_case _ _ _ E) as [(a & -> & _ & X & _)|[(c & m & d & -> & _ & _ & X)|[(c & m & -> & _ & _ & X)|[(c & m & -> & _ & _ & X)|[(c & -> & _ & X & _)|[(c & m & d & j & -> & _ & _ & X)|(op & -> & _ & X & _)]]]]]];
      [exists [a]|exists [SrvRecv c (Some d)]|exists [SrvRecv c None]|exists [SrvCrash]|exists [SrvRecv c None]|exists [SrvCrashSending c d j]|exists []]; cbn [run]; rewrite ?X; (split; [reflexivity|]);
      intros c' Hf; repeat constructor; exact Hf. }
  destruct K as (u & R' & F'). exists (u ++ us). split; [rewrite run_app, R'; exact R|]. intros c Hf. inversion Hf; subst. apply Forall_app. auto.
Qed.
Lemma net_reached ls st s c : lrun ls (lsys0 st) = Some s -> Forall (fair c) ls -> reached (fair_to c) (l_net s).
Proof. intros H F. destruct (net_run _ _ _ H) as (us & R & Q). exists us. split; [exact (Q c F)|exact R]. Qed.

(** ** The calls *)
Definition logged (e : entry) : list (nat * msg * option bytes) :=
  match e with Call c m (Answer d) => [(c, m, Some d)] | Call c m NoAnswer => [(c, m, None)] | _ => [] end.
Definition quiet (e : entry) : Prop := match e with Call _ _ Throws => False | _ => True end.
Lemma calls_quiet a n n' : serving a = false -> step a n = Some n' -> s_calls n' = s_calls n.
Proof.
  intros S H. destruct a as [c'|c'|c' nm|nm|c' nm d|c' r ok|c' r|c' r|c' ua|c'|c' nm d|c' i|c'|c' ans|c'|nm d| | |c' d j]; try discriminate S; cbn [step] in H.
  - destruct (c_born (s_cl n c') || negb (s_up n)); [discriminate H|]. exact (some_f s_calls _ _ H).
  - destruct (s_up n); [|discriminate H]. destruct (s_conn n c'); try discriminate H. exact (some_f s_calls _ _ H).
  - exact (some_f s_calls _ _ H).
  - exact (some_f s_calls _ _ H).
  - destruct (negb (c_born (s_cl n c'))); [discriminate H|]. exact (some_f s_calls _ _ H).
  - destruct (nth_error (c_reqs (s_cl n c')) r) as [q|]; [|discriminate H]. destruct (r_stage q); try discriminate H. destruct (c_open (s_cl n c') && ok); exact (some_f s_calls _ _ H).
  - destruct (nth_error (c_reqs (s_cl n c')) r) as [q|]; [|discriminate H]. destruct (r_stage q); try discriminate H. exact (some_f s_calls _ _ H).
  - destruct (nth_error (c_reqs (s_cl n c')) r) as [q|]; [|discriminate H]. destruct (in_call q); try discriminate H. exact (some_f s_calls _ _ H).
  - destruct (client_recv _ _ _); [|discriminate H]. exact (some_f s_calls _ _ H).
  - exact (some_f s_calls _ _ H).
  - destruct (c_run (s_cl n c') && c_open (s_cl n c')); [|discriminate H]. exact (some_f s_calls _ _ H).
  - destruct (c_open (s_cl n c')); [|discriminate H]. exact (some_f s_calls _ _ H).
  - destruct (negb (c_born (s_cl n c')) || existsb in_call (c_reqs (s_cl n c'))); [discriminate H|]. exact (some_f s_calls _ _ H).
  - destruct (s_up n); [|discriminate H]. destruct (s_conn n c'); try discriminate H. destruct (c_open (s_cl n c')); [discriminate H|]. exact (some_f s_calls _ _ H).
  - exact (some_f s_calls _ _ H).
  - destruct (negb (s_up n)); [discriminate H|]. destruct (rev (s_queue n)) as [|[x y] rq]; [discriminate H|]. exact (some_f s_calls _ _ H).
  - destruct (s_up n); [|discriminate H]. exact (some_f s_calls _ _ H).
Qed.
Lemma next_some c n m : next_call c n = Some m -> exists g r, s_up n = true /\ s_conn n c = Accepted /\ c_out (s_cl n c) = Full m g :: r /\ mem (ep_name m) (s_eps n) = true.
Proof.
  unfold next_call. destruct (s_up n); [|discriminate]. destruct (s_conn n c); try discriminate. destruct (c_out (s_cl n c)) as [|[m' g| |] r]; try discriminate.
  destruct (mem (ep_name m') (s_eps n)) eqn:E; [|discriminate]. intros H. injection H as <-. exists g, r. auto.
Qed.
Lemma calls_recv c m ans n n' : next_call c n = Some m -> step (SrvRecv c ans) n = Some n' -> s_calls n' = s_calls n ++ [(c, m, ans)].
Proof.
  intros N H. destruct (next_some _ _ _ N) as (g & r & U & C & O & M). cbn [step] in H. rewrite U, C, O, M in H. destruct ans; exact (some_f s_calls _ _ H).
Qed.
Lemma calls_none c n n' : next_call c n = None -> step (SrvRecv c None) n = Some n' -> s_calls n' = s_calls n.
Proof.
  unfold next_call. intros N H. cbn [step] in H. destruct (s_up n); [|discriminate H]. destruct (s_conn n c); try discriminate H. destruct (c_out (s_cl n c)) as [|[m g| |] r]; try discriminate H; try (exact (some_f s_calls _ _ H)).
  destruct (mem (ep_name m) (s_eps n)); [discriminate N|]. exact (some_f s_calls _ _ H).
Qed.
Lemma calls_cut c m d j n n' : next_call c n = Some m -> step (SrvCrashSending c d j) n = Some n' -> s_calls n' = s_calls n ++ [(c, m, Some d)].
Proof.
  intros N H. destruct (next_some _ _ _ N) as (g & r & U & C & O & M). cbn [step] in H. rewrite U, C, O, M in H. cbn [andb] in H. destruct (j <? length d); [|discriminate H]. exact (some_f s_calls _ _ H).
Qed.
Lemma calls_step l s s' : lstep l s = Some s' -> s_calls (l_net s') = s_calls (l_net s) ++ flat_map logged (did l s).
Proof.
  intros H. destruct (step_case _ _ _ H) as [(a & -> & Q & X & _)|[(c & m & d & -> & N & Hd & X)|[(c & m & -> & N & Hd & X)|[(c & m & -> & N & Hd & X)|[(c & -> & N & X & _)|[(c & m & d & j & -> & N & Hd & X)|(op & -> & _ & X & _)]]]]]]; cbn [did];
    try rewrite N; try rewrite Hd; cbn [snd app flat_map logged].
  - rewrite app_nil_r. exact (calls_quiet _ _ _ Q X).
  - exact (calls_recv _ _ _ _ _ N X).
  - exact (calls_recv _ _ _ _ _ N X).
  - rewrite app_nil_r. exact (calls_quiet SrvCrash _ _ eq_refl X).
  - rewrite app_nil_r. exact (calls_none _ _ _ N X).
  - exact (calls_cut _ _ _ _ _ _ N X).
  - rewrite app_nil_r, X. reflexivity.
Qed.
Lemma calls_run ls : forall s s', lrun ls s = Some s' -> s_calls (l_net s') = s_calls (l_net s) ++ flat_map logged (trace ls s).
Proof.
  induction ls as [|l ls IH]; intros s s' H; cbn [Linear_model.lrun] in H; [injection H as <-; cbn; now rewrite app_nil_r|]. cbn [trace]. destruct (lstep l s) as [s1|] eqn:E; [|discriminate H].
  rewrite (IH _ _ H), (calls_step _ _ _ E), flat_map_app, app_assoc. reflexivity.
Qed.

(** ** What is on the way to the server *)
Inductive flow (c : nat) (l : label) (s s' : sys) : Prop :=
  | fl_push p : c_out (s_cl s' c) = c_out (s_cl s c) ++ p ->
      (fair_to c l -> forall m g, In (Full m g) p -> req_id m = 0%N \/ exists r q, nth_error (c_reqs (s_cl s c)) r = Some q /\ r_stage q = Taken /\ m = msg_of q) -> flow c l s s'
  | fl_take i : c_out (s_cl s c) = i :: c_out (s_cl s' c) -> (exists a, l = SrvRecv c a) \/ (exists d j, l = SrvCrashSending c d j) -> flow c l s s'.
Lemma recv_out eof ua x x' : Inv1 x -> client_recv eof ua x = Some x' -> exists p, c_out x' = c_out x ++ p /\ (ua = None -> p = []).
Proof.
  unfold client_recv. intros I H. destruct (negb (c_run x)); [discriminate H|].
  assert (G : forall m g y, Inv1 y -> c_out y = c_out x -> exists p, c_out (process m g ua y) = c_out x ++ p /\ (ua = None -> p = [])).
  { intros m g y Iy Ey. destruct (process_processed m g ua y Iy); cbn; rewrite Ey; try (exists []; split; [now rewrite app_nil_r|reflexivity]). eexists. split; [reflexivity|discriminate]. }
  destruct (c_in x) as [|[m g|m|] r]; [destruct eof; [|discriminate H]| | |]; injection H as <-; apply G; cbn; auto; eapply Inv1_ext; try exact I; reflexivity.
Qed.
Lemma flow_step P c l s s' : reached P s -> step l s = Some s' -> flow c l s s'.
Proof.
  intros Re H. pose proof (Inv1_reached _ _ c Re) as I. destruct (step_local c l s s' H) as [(E & _)|L].
  - apply (fl_push _ _ _ _ []); [rewrite E; now rewrite app_nil_r|]. intros _ m g [].
  - assert (None' : forall p, p = [] -> c_out (s_cl s' c) = c_out (s_cl s c) ++ p -> flow c l s s') by (intros p -> E; apply (fl_push _ _ _ _ []); [exact E|intros _ m g []]).
    assert (Pi : forall i x, c_out (push_in i x) = c_out x) by (intros i x; unfold push_in; destruct (c_open x); reflexivity).
    remember (s_cl s c) as x eqn:Ex. remember (s_cl s' c) as x' eqn:Ex'. remember (ccalls c s) as k eqn:Ek. remember (ccalls c s') as k' eqn:Ek'.
    destruct L as [x k Hb|x k n|x k n d Hb|x k r q Hq Hs Ho|x k r q ok Hq Hs Ho|x k r q Hq Hs|x k r q Hq Hs|x k ua eof x' Hr|x k|x k n d|x k i|x k Hb He|x k m g r d Hc|x k m g r Hc|x k i r ans Hc|x k j n d|x k m g r d j Hc Hj].
    1-3,5-7,9,12: apply (None' []); [reflexivity|cbn; now rewrite app_nil_r].
    + apply (fl_push _ _ _ _ [Full (msg_of q) (GReq r)]); [rewrite <- Ex', <- Ex; reflexivity|]. intros _ m g [E|[]]. injection E as <- _. right. exists r, q. rewrite <- Ex. auto.
    + destruct (recv_out _ _ _ _ I Hr) as (p & E & N). apply (fl_push _ _ _ _ p); [rewrite <- Ex', <- Ex; exact E|]. intros Fa m g Hin. destruct ua; [destruct (Fa eq_refl)|]. rewrite (N eq_refl) in Hin. destruct Hin.
    + apply (fl_push _ _ _ _ [Full {| req_id := 0; ep_name := n; payload := d |} GCast]); [rewrite <- Ex', <- Ex; reflexivity|]. intros _ m g [E|[]]. injection E as <- _. left. reflexivity.
    + apply (fl_push _ _ _ _ [match i with Full m _ => Full m GRaw | i => i end]); [rewrite <- Ex', <- Ex; reflexivity|]. intros Fa. destruct (Fa eq_refl).
    + apply (fl_take _ _ _ _ (Full m g)); [rewrite <- Ex', <- Ex, Pi; exact Hc|eauto].
    + apply (fl_take _ _ _ _ (Full m g)); [rewrite <- Ex', <- Ex; exact Hc|eauto].
    + apply (fl_take _ _ _ _ i); [rewrite <- Ex', <- Ex; exact Hc|eauto].
    + apply (None' []); [reflexivity|]. rewrite Pi, app_nil_r. reflexivity.
    + apply (fl_take _ _ _ _ (Full m g)); [rewrite <- Ex', <- Ex, Pi; exact Hc|eauto].
Qed.

(** ** A request that is sent stays sent *)
Lemma set_extends (l : list req) r q q' : nth_error l r = Some q -> msg_of q' = msg_of q -> (sent q = true -> sent q' = true) -> forall r2 q2, nth_error l r2 = Some q2 ->
  exists q3, nth_error (set_nth r q' l) r2 = Some q3 /\ msg_of q3 = msg_of q2 /\ (sent q2 = true -> sent q3 = true).
Proof.
  intros Hq Hm Hs r2 q2 H. destruct (Nat.eq_dec r2 r) as [->|Hr].
  - rewrite set_nth_same by (eapply nth_error_lt; eauto). rewrite Hq in H. injection H as <-. eauto.
  - rewrite set_nth_other by exact Hr. eauto.
Qed.
Lemma broken_extends pend : forall l r q, nth_error l r = Some q -> exists q', nth_error (broken pend l) r = Some q' /\ msg_of q' = msg_of q /\ (sent q = true -> sent q' = true).
Proof.
  unfold broken. induction pend as [|e pend IH]; cbn [fold_left]; intros l r q Hq; [eauto|].
  destruct (nth_error l (snd e)) as [q0|] eqn:E; [|eauto]. destruct (r_val q0) eqn:V; eauto.
  destruct (set_extends l (snd e) q0 (with_val BrokenPromise q0) E eq_refl (fun x => x) r q Hq) as (q3 & H3 & H4 & H5).
  destruct (IH _ _ _ H3) as (q4 & H6 & H7 & H8). exists q4. split; [exact H6|]. split; [congruence|auto].
Qed.
Lemma local_extends c l x k x' k' : local c l x k x' k' -> Inv1 x -> extends x x'.
Proof.
  intros L I1. assert (Pi : forall i y, c_reqs (push_in i y) = c_reqs y) by (intros i y; unfold push_in; destruct (c_open y); reflexivity).
  destruct L; try (apply extends_eq; rewrite ?Pi; reflexivity); unfold extends; cbn [c_reqs set_reqs set_next push_out set_out set_pending set_flags set_in].
  - intros r0 q0 E0. exists q0. split; [now rewrite nth_error_app1 by (eapply nth_error_lt; eauto)|split; [reflexivity|exact (fun h => h)]].
  - apply (set_extends _ _ q); [assumption|reflexivity|auto].
  - apply (set_extends _ _ q); [assumption|reflexivity|auto]. unfold sent. rewrite H0. discriminate.
  - apply (set_extends _ _ q); [assumption|reflexivity|auto].
  - apply (set_extends _ _ q); [assumption|reflexivity|auto].
  - unfold client_recv in H. destruct (negb (c_run x)); [discriminate H|].
    assert (gen : forall m g x0, Inv1 x0 -> c_reqs x0 = c_reqs x -> forall r q, nth_error (c_reqs x) r = Some q ->
              exists q', nth_error (c_reqs (process m g ua x0)) r = Some q' /\ msg_of q' = msg_of q /\ (sent q = true -> sent q' = true)).
    { intros m g x0 J1 <-. destruct (process_processed m g ua x0 J1) as [r1 q1 ua' P1 P2 P3 P4 P5 P6 P7| | | |]; cbn;
        try (intros r0 q0 E0; exists q0; split; [exact E0|split; [reflexivity|exact (fun h => h)]]; fail).
      apply (set_extends _ _ q1); [assumption|reflexivity|auto]. }
    destruct (c_in x) as [|[m g|m|] r] eqn:Ei; [destruct eof; [|discriminate H]| | |]; injection H as <-; apply gen;
      try (eapply Inv1_ext; [..|exact I1]; reflexivity); reflexivity.
  - intros r0 q0 E0. now apply broken_extends.
Qed.
Lemma step_extends P c l s s' : reached P s -> step l s = Some s' -> extends (s_cl s c) (s_cl s' c).
Proof.
  intros Re H. destruct (step_local c l s s' H) as [(E & _)|L]; [rewrite E; apply extends_refl|]. exact (local_extends _ _ _ _ _ _ L (Inv1_reached P s c Re)).
Qed.
Lemma extends_trans x y z : extends x y -> extends y z -> extends x z.
Proof. intros A B r q H. destruct (A r q H) as (q1 & H1 & M1 & S1). destruct (B r q1 H1) as (q2 & H2 & M2 & S2). exists q2. split; [exact H2|]. split; [congruence|auto]. Qed.
Lemma lstep_net l s s' c : lstep l s = Some s' -> fair c l -> l_net s' = l_net s \/ exists a, step a (l_net s) = Some (l_net s') /\ fair_to c a.
Proof.
  intros E F. destruct (step_case _ _ _ E) as [(a & -> & _ & X & _)|[(c' & m & d & -> & _ & _ & X)|[(c' & m & -> & _ & _ & X)|[(c' & m & -> & _ & _ & X)|[(c' & -> & _ & X & _)|[(c' & m & d & j & -> & _ & _ & X)|(op & -> & _ & X & _)]]]]]];
    try (right; eexists; split; [exact X|exact F || exact I]; fail). left. exact X.
Qed.
Lemma lstep_reached l s s' c : lstep l s = Some s' -> fair c l -> reached (fair_to c) (l_net s) -> reached (fair_to c) (l_net s').
Proof. intros E F R. destruct (lstep_net _ _ _ _ E F) as [->|(a & X & Fa)]; [exact R|]. exact (reached_step _ _ _ _ R Fa X). Qed.
Lemma lstep_extends l s s' c : lstep l s = Some s' -> fair c l -> reached (fair_to c) (l_net s) -> extends (s_cl (l_net s) c) (s_cl (l_net s') c).
Proof. intros E F R. destruct (lstep_net _ _ _ _ E F) as [->|(a & X & Fa)]; [apply extends_refl|]. exact (step_extends _ _ _ _ _ R X). Qed.
Lemma lrun_extends ls : forall s s' c, lrun ls s = Some s' -> Forall (fair c) ls -> reached (fair_to c) (l_net s) -> extends (s_cl (l_net s) c) (s_cl (l_net s') c).
Proof.
  induction ls as [|l ls IH]; intros s s' c H F R; cbn [Linear_model.lrun] in H; [injection H as <-; apply extends_refl|]. destruct (lstep l s) as [s1|] eqn:E; [|discriminate H]. inversion F; subst.
  eapply extends_trans; [eapply lstep_extends; eauto|]. eapply IH; eauto. eapply lstep_reached; eauto.
Qed.

(** ** What a step does to the messages on the way *)
Lemma recv_head c m ans n n' : next_call c n = Some m -> step (SrvRecv c ans) n = Some n' -> exists g, c_out (s_cl n c) = Full m g :: c_out (s_cl n' c).
Proof.
  intros N H. destruct (next_some _ _ _ N) as (g & r & U & C & O & M). cbn [step] in H. rewrite U, C, O, M in H. exists g. rewrite O. f_equal.
  destruct ans; rewrite (some_f (fun n => c_out (s_cl n c)) _ _ H); cbn; rewrite upd_same; [unfold push_in; cbn; destruct (c_open (s_cl n c)); reflexivity|reflexivity].
Qed.
Lemma crash_down n n' : step SrvCrash n = Some n' -> s_up n' = false /\ forall c, c_out (s_cl n' c) = c_out (s_cl n c).
Proof.
  cbn [step]. intros H. destruct (s_up n); [|discriminate H]. split; [exact (some_f s_up _ _ H)|]. intros c. exact (some_f (fun n => c_out (s_cl n c)) _ _ H).
Qed.
Lemma cut_down c d j n n' : step (SrvCrashSending c d j) n = Some n' -> s_up n' = false.
Proof.
  cbn [step]. intros H. destruct (s_up n); [|discriminate H]. destruct (s_conn n c); try discriminate H. destruct (c_out (s_cl n c)) as [|[m g| |] r]; try discriminate H.
  destruct (mem (ep_name m) (s_eps n) && (j <? length d)); [|discriminate H]. exact (some_f s_up _ _ H).
Qed.
Definition pushed (c : nat) (s : sys) (p : list item) : Prop := forall m g, In (Full m g) p -> req_id m = 0%N \/ exists r q, nth_error (c_reqs (s_cl s c)) r = Some q /\ r_stage q = Taken /\ m = msg_of q.
Lemma way l s s' c : lstep l s = Some s' -> fair c l -> reached (fair_to c) (l_net s) ->
  (exists p, c_out (s_cl (l_net s') c) = c_out (s_cl (l_net s) c) ++ p /\ pushed c (l_net s) p /\ forall m r, ~ In (Call c m r) (did l s)) \/
  (exists i, c_out (s_cl (l_net s) c) = i :: c_out (s_cl (l_net s') c) /\ did l s = []) \/
  (exists m g r, c_out (s_cl (l_net s) c) = Full m g :: c_out (s_cl (l_net s') c) /\ did l s = [Call c m r] /\ r <> Throws) \/
  (exists m g, In (Full m g) (c_out (s_cl (l_net s') c)) /\ s_up (l_net s') = false /\ did l s = [Call c m Throws] /\ c_out (s_cl (l_net s') c) = c_out (s_cl (l_net s) c)).
Proof.
  intros E F R.
  assert (T : forall a, step a (l_net s) = Some (l_net s') -> fair_to c a -> (forall m r, ~ In (Call c m r) (did l s)) -> (forall a', a <> SrvRecv c a') ->
    exists p, c_out (s_cl (l_net s') c) = c_out (s_cl (l_net s) c) ++ p /\ pushed c (l_net s) p /\ forall m r, ~ In (Call c m r) (did l s)).
  { intros a X Fa N Na. destruct (flow_step _ c _ _ _ R X) as [p Ep Hp|i Ei [(a' & ->)|(d & j & ->)]].
    - exists p. split; [exact Ep|]. split; [exact (Hp Fa)|exact N].
    - destruct (Na a' eq_refl).
    - destruct (Fa eq_refl). }
  destruct (step_case _ _ _ E) as [(a & -> & Q & X & _)|[(c' & m & d & -> & N & Hd & X)|[(c' & m & -> & N & Hd & X)|[(c' & m & -> & N & Hd & X)|[(c' & -> & N & X & _)|[(c' & m & d & j & -> & N & Hd & X)|(op & -> & _ & X & _)]]]]]]; cbn [did] in T |- *;
    try rewrite N in T |- *; try rewrite Hd in T |- *; cbn [snd app] in T |- *.
  - left. apply (T a X F); [intros m r []|]. intros a' ->. discriminate Q.
  - destruct (Nat.eq_dec c' c) as [->|Nc].
    + right. right. left. destruct (recv_head _ _ _ _ _ N X) as (g & Eg). exists m, g, (Answer d). split; [exact Eg|]. split; [reflexivity|discriminate].
    + left. apply (T _ X I); [intros m' r' [Z|[]]; injection Z; intros; congruence|]. intros a' Z. injection Z. intros; congruence.
  - destruct (Nat.eq_dec c' c) as [->|Nc].
    + right. right. left. destruct (recv_head _ _ _ _ _ N X) as (g & Eg). exists m, g, NoAnswer. split; [exact Eg|]. split; [reflexivity|discriminate].
    + left. apply (T _ X I); [intros m' r' [Z|[]]; injection Z; intros; congruence|]. intros a' Z. injection Z. intros; congruence.
  - destruct (crash_down _ _ X) as (Dn & Ou). destruct (Nat.eq_dec c' c) as [->|Nc].
    + right. right. right. destruct (next_some _ _ _ N) as (g & r & _ & _ & O & _). exists m, g. rewrite Ou, O. split; [left; reflexivity|auto].
    + left. apply (T _ X I); [intros m' r' [Z|[]]; injection Z; intros; congruence|]. intros a' Z. discriminate Z.
  - destruct (flow_step _ c _ _ _ R X) as [p Ep Hp|i Ei _].
    + left. exists p. split; [exact Ep|]. split; [exact (Hp I)|intros m r []].
    + right. left. exists i. auto.
  - left. apply (T _ X F); [intros m' r' [Z|[]]; injection Z; intros; subst; exact (F eq_refl)|]. intros a' Z. discriminate Z.
  - left. exists []. rewrite X, app_nil_r. split; [reflexivity|]. split; [intros m g []|]. intros m r [Z|[]]. discriminate Z.
Qed.

(** ** A server that has ended calls nothing *)
Lemma down_stays l n n' : s_up n = false -> step l n = Some n' -> s_up n' = false.
Proof.
  intros U H. destruct l as [c'|c'|c' nm|nm|c' nm d|c' r ok|c' r|c' r|c' ua|c'|c' nm d|c' i|c'|c' ans|c'|nm d| | |c' d j]; cbn [step] in H; rewrite ?U in H; cbn [negb andb] in H; try discriminate H.
  - destruct (c_born (s_cl n c')); discriminate H.
  - rewrite (some_f s_up _ _ H); first [exact U|reflexivity].
  - rewrite (some_f s_up _ _ H); first [exact U|reflexivity].
  - destruct (negb (c_born (s_cl n c'))); [discriminate H|]. rewrite (some_f s_up _ _ H); first [exact U|reflexivity].
  - destruct (nth_error (c_reqs (s_cl n c')) r) as [q|]; [|discriminate H]. destruct (r_stage q); try discriminate H. destruct (c_open (s_cl n c') && ok); rewrite (some_f s_up _ _ H); first [exact U|reflexivity].
  - destruct (nth_error (c_reqs (s_cl n c')) r) as [q|]; [|discriminate H]. destruct (r_stage q); try discriminate H. rewrite (some_f s_up _ _ H); first [exact U|reflexivity].
  - destruct (nth_error (c_reqs (s_cl n c')) r) as [q|]; [|discriminate H]. destruct (in_call q); try discriminate H. rewrite (some_f s_up _ _ H); first [exact U|reflexivity].
  - destruct (client_recv _ _ _); [|discriminate H]. rewrite (some_f s_up _ _ H); first [exact U|reflexivity].
  - rewrite (some_f s_up _ _ H); first [exact U|reflexivity].
  - destruct (c_run (s_cl n c') && c_open (s_cl n c')); [|discriminate H]. rewrite (some_f s_up _ _ H); first [exact U|reflexivity].
  - destruct (c_open (s_cl n c')); [|discriminate H]. rewrite (some_f s_up _ _ H); first [exact U|reflexivity].
  - destruct (negb (c_born (s_cl n c')) || existsb in_call (c_reqs (s_cl n c'))); [discriminate H|]. rewrite (some_f s_up _ _ H); first [exact U|reflexivity].
  - rewrite (some_f s_up _ _ H); first [exact U|reflexivity].
Qed.
Lemma down_step l s s' : s_up (l_net s) = false -> lstep l s = Some s' -> s_up (l_net s') = false /\ did l s = [].
Proof.
  intros U E. assert (Nx : forall c, next_call c (l_net s) = None) by (intros c; unfold next_call; now rewrite U).
  destruct (step_case _ _ _ E) as [(a & -> & Q & X & _)|[(c' & m & d & -> & N & Hd & X)|[(c' & m & -> & N & Hd & X)|[(c' & m & -> & N & Hd & X)|[(c' & -> & N & X & _)|[(c' & m & d & j & -> & N & Hd & X)|(op & -> & Y & X & _)]]]]]]; try (rewrite Nx in N; discriminate N).
  - split; [exact (down_stays _ _ _ U X)|reflexivity].
  - split; [exact (down_stays _ _ _ U X)|]. cbn [did]. now rewrite N.
  - rewrite U in Y. discriminate Y.
Qed.
Lemma down_run ls : forall s s', s_up (l_net s) = false -> lrun ls s = Some s' -> trace ls s = [].
Proof.
  induction ls as [|l ls IH]; intros s s' U H; [reflexivity|]. cbn [Linear_model.lrun] in H. cbn [trace]. destruct (lstep l s) as [s1|] eqn:E; [|discriminate H].
  destruct (down_step _ _ _ U E) as (U1 & ->). exact (IH _ _ U1 H).
Qed.
(** Only the last entry is a call that threw. *)
Lemma quiet_shape ls : forall s s', lrun ls s = Some s' -> Forall quiet (trace ls s) \/ exists t c m, trace ls s = t ++ [Call c m Throws] /\ Forall quiet t.
Proof.
  induction ls as [|l ls IH]; intros s s' H; [left; constructor|]. cbn [Linear_model.lrun] in H. cbn [trace]. destruct (lstep l s) as [s1|] eqn:E; [|discriminate H].
  assert (D : Forall quiet (did l s) \/ exists c m, did l s = [Call c m Throws] /\ s_up (l_net s1) = false).
  { destruct (step_case _ _ _ E) as [(a & -> & Q & X & _)|[(c' & m & d & -> & N & Hd & X)|[(c' & m & -> & N & Hd & X)|[(c' & m & -> & N & Hd & X)|[(c' & -> & N & X & _)|[(c' & m & d & j & -> & N & Hd & X)|(op & -> & Y & X & _)]]]]]]; cbn [did]; rewrite ?N, ?Hd; cbn [snd];
      try (left; repeat constructor; fail). right. exists c', m. split; [reflexivity|]. exact (proj1 (crash_down _ _ X)). }
  destruct D as [D|(c & m & D & U)].
  - destruct (IH _ _ H) as [K|(t & c & m & K & Q)].
    + left. apply Forall_app. auto.
    + right. exists (did l s ++ t), c, m. rewrite K, app_assoc. split; [reflexivity|]. apply Forall_app. auto.
  - right. exists [], c, m. rewrite D, (down_run _ _ _ U H). split; [reflexivity|constructor].
Qed.
(** ... and the message of a call that threw is still where it was. *)
Lemma thrown_there ls : forall s s' c m, lrun ls s = Some s' -> Forall (fair c) ls -> reached (fair_to c) (l_net s) -> In (Call c m Throws) (trace ls s) -> exists g, In (Full m g) (c_out (s_cl (l_net s') c)).
Proof.
  induction ls as [|l ls IH]; intros s s' c m H F R Hin; [destruct Hin|]. cbn [Linear_model.lrun] in H. cbn [trace] in Hin. destruct (lstep l s) as [s1|] eqn:E; [|discriminate H].
  inversion F as [|? ? F1 F2]; subst. pose proof (lstep_reached _ _ _ _ E F1 R) as R1. apply in_app_or in Hin. destruct Hin as [Hin|Hin]; [|exact (IH _ _ _ _ H F2 R1 Hin)].
  destruct (way _ _ _ c E F1 R) as [(p & _ & _ & N)|[(i & _ & N)|[(m' & g & r & _ & N & Nr)|(m' & g & Ig & U & N & _)]]].
  - destruct (N _ _ Hin).
  - rewrite N in Hin. destruct Hin.
  - rewrite N in Hin. destruct Hin as [Z|[]]. injection Z. intros; subst. destruct (Nr eq_refl).
  - rewrite N in Hin. destruct Hin as [Z|[]]. injection Z as ->. clear - Ig U H F2 R1. exists g. revert s1 U H R1 Ig F2. induction ls as [|l ls IH]; intros s1 U H R1 Ig F2; cbn [Linear_model.lrun] in H; [injection H as <-; exact Ig|].
    destruct (lstep l s1) as [s2|] eqn:E; [|discriminate H]. inversion F2 as [|? ? G1 G2]; subst. destruct (down_step _ _ _ U E) as (U2 & D).
    apply (IH s2 U2 H); [exact (lstep_reached _ _ _ _ E G1 R1)| |exact G2].
    destruct (way _ _ _ c E G1 R1) as [(p & Ep & _)|[(i & Ei & _)|[(m' & g' & r & _ & N' & _)|(m' & g' & _ & _ & N' & _)]]]; try (rewrite D in N'; discriminate N').
    + rewrite Ep. apply in_or_app. left. exact Ig.
    + exfalso. destruct (lstep_net _ _ _ _ E G1) as [Q|(a & X & Fa)]; [rewrite Q in Ei; clear - Ei; induction (c_out (s_cl (l_net s1) c)) as [|z r IHr]; [discriminate Ei|injection Ei as -> Ei; exact (IHr Ei)]|].
      assert (K : exists a', a = SrvRecv c a').
      { destruct (flow_step _ c _ _ _ R1 X) as [p Ep _|i' _ [K|(d & j & ->)]]; [|exact K|destruct (Fa eq_refl)]. rewrite Ep in Ei. apply (f_equal (@length _)) in Ei. cbn in Ei. rewrite app_length in Ei. lia. }
      destruct K as (a' & ->). cbn [step] in X. rewrite U in X. discriminate X.
Qed.
End Proofs.
