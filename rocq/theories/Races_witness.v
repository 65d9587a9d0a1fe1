(** Schedules that run into races. *)
From Coq Require Import List Arith Bool Lia.
Import ListNotations.
From Verif Require Locks_model.
Import Locks_model(lock(..), lock_dec).
From Verif Require Import Races_model Races_spec.

(** A run of a function, by its choices: which branch, once more or not, which object. *)
Fixpoint pick (c : code) (ch : list nat) : option (list op * list nat) :=
  match c with
  | Nop => Some ([], ch)
  | Seq a b => match pick a ch with
               | Some (x, ch1) => match pick b ch1 with Some (y, ch2) => Some (x ++ y, ch2) | None => None end
               | None => None
               end
  | Either a b => match ch with 0 :: r => pick a r | 1 :: r => pick b r | _ => None end
  | Many a => match ch with 0 :: r => Some ([], r) | 1 :: r => pick a r | _ => None end
  | Any f => match ch with i :: r => pick (f i) r | [] => None end
  | Locked m l a => match pick a ch with Some (x, r) => Some (Acq m l :: x ++ [Rel m l], r) | None => None end
  | Read x => Some ([Get x], ch)
  | Write x => Some ([Put x], ch)
  | Join t => Some ([Wait t], ch)
  end.
Lemma pick_trace c : forall ch x r, pick c ch = Some (x, r) -> trace c x.
Proof.
  induction c as [|a IHa b IHb|a IHa b IHb|a IHa|f IHf|m l a IHa|v|v|u]; intros ch x r E; cbn [pick] in E.
  - assert (x = []) as -> by congruence. constructor.
  - destruct (pick a ch) as [[y ch1]|] eqn:Ea; [|discriminate]. destruct (pick b ch1) as [[z ch2]|] eqn:Eb; [|discriminate]. assert (x = y ++ z) as -> by congruence. econstructor; eauto.
  - destruct ch as [|[|[|n]] ch]; try discriminate; [apply tr_left|apply tr_right]; eauto.
  - destruct ch as [|[|[|n]] ch]; try discriminate; [assert (x = []) as -> by congruence; constructor|]. rewrite <- (app_nil_r x). econstructor; [eauto|constructor].
  - destruct ch as [|i ch]; [discriminate|]. econstructor; eauto.
  - destruct (pick a ch) as [[y ch1]|] eqn:Ea; [|discriminate]. assert (x = Acq m l :: y ++ [Rel m l]) as -> by congruence. econstructor; eauto.
  - assert (x = [Get v]) as -> by congruence. constructor.
  - assert (x = [Put v]) as -> by congruence. constructor.
  - assert (x = [Wait u]) as -> by congruence. constructor.
Qed.

Definition quiet : callbacks :=
  {| cb_log := Nop; cb_name := Nop; cb_handle := fun _ => Nop; cb_unsolicited := fun _ => Nop; cb_factory := Nop; cb_source := Nop |}.
Lemma quiet_user roles : user_callbacks roles quiet.
Proof. repeat split; constructor. Qed.
Definition two (a b : role) : nat -> role := fun t => match t with 0 => a | 1 => b | _ => RUser end.
Definition both (x y : list op) : nat -> list op := fun t => match t with 0 => x | 1 => y | _ => [] end.
(** Thread 0 goes [n] steps, then thread 1 [m] steps. *)
Definition turns (n m : nat) : list nat := repeat 0 n ++ repeat 1 m.
Definition ahead (s : option state) : option (option op * option op) := match s with Some s => Some (hd_error (todo s 0), hd_error (todo s 1)) | None => None end.
Lemma witness (a b : role) (ca cb : list nat) (n m : nat) (v : loc) x y ra rb o0 o1 :
  a <> b \/ a = RUser -> b <> RUser \/ a = RUser ->
  pick (thread_code (two a b) quiet 0) ca = Some (x, ra) -> pick (thread_code (two a b) quiet 1) cb = Some (y, rb) ->
  ahead (run (turns n m) (begin (both x y))) = Some (Some o0, Some o1) -> (o0 = Put v /\ (o1 = Get v \/ o1 = Put v) \/ o1 = Put v /\ (o0 = Get v \/ o0 = Put v)) ->
  exists s, possible s /\ race v s.
Proof.
  intros Hab Hb Ea Eb Er Hr. destruct (run (turns n m) (begin (both x y))) as [s|] eqn:Es; [|discriminate]. exists s. split.
  - exists (two a b), quiet, (both x y). split; [|split; [apply quiet_user|split]].
    + intros [|[|t]] [|[|u]]; cbn [two]; intros E; auto; destruct Hab, Hb; subst; auto; congruence.
    + intros [|[|t]] H; cbn [both] in *; [eapply pick_trace, Ea|eapply pick_trace, Eb|congruence].
    + exists (turns n m). exact Es.
  - assert (H0 : exists r, todo s 0 = o0 :: r). { destruct (todo s 0) as [|o r] eqn:E; cbn [ahead] in Er; rewrite E in Er; cbn [hd_error] in Er; [discriminate|]. exists r. congruence. }
    assert (H1 : exists r, todo s 1 = o1 :: r). { destruct (todo s 1) as [|o r] eqn:E; cbn [ahead] in Er; rewrite E in Er; cbn [hd_error] in Er; [discriminate|]. exists r. congruence. }
    destruct H0 as (r0 & H0), H1 as (r1 & H1). unfold race, writes, touches.
    destruct Hr as [[-> [->| ->]]|[-> [->| ->]]]; [exists 0, 1|exists 0, 1|exists 1, 0|exists 1, 0]; (split; [congruence|split; [eauto|eauto]]).
Qed.

Definition user (i : nat) (rest : list nat) : list nat := 1 :: 0 :: repeat 1 i ++ 0 :: rest.
Tactic Notation "race_of" constr(a) constr(b) constr(ca) constr(cb) constr(n) constr(m) :=
  eapply (witness a b ca cb n m); [first [left; discriminate|right; reflexivity]|first [left; discriminate|right; reflexivity]|reflexivity|reflexivity|vm_compute; reflexivity|auto].

Lemma r_endpoints t : exists s, possible s /\ race (VEndpoints t) s.
Proof. race_of RUser (RTransport t) (user 0 [t;1;1;1;1;1;0;0;0]) [0;1;0;0;0;0;1;1;0;0;0;0] 1 5. Qed.
Lemma r_logger t : exists s, possible s /\ race (VTransportLogger t) s.
Proof. race_of RUser (RTransport t) (user 0 [t;1;1;1;1;1;1;1;1]) [0;1;1;0;0;0;0;0] 0 2. Qed.
Lemma r_fd t : exists s, possible s /\ race (VClientFd t) s.
Proof. race_of RUser (RTransport t) (user 0 [t;1;1;0;1]) [0;1;0;0;1;1;0;0;0;0] 0 4. Qed.
Lemma r_running t : exists s, possible s /\ race (VRunning t) s.
Proof. race_of RUser (RTransport t) (user 12 [1;t;0;0]) [0;1;0;0;0;0;0;0] 0 0. Qed.
Lemma r_servers f : exists s, possible s /\ race (VServers f) s.
Proof. race_of RUser (RPoll 0) (user 9 [1;f]) [1;0;1;f;0] 0 3. Qed.
Lemma r_transport e : exists s, possible s /\ race (VTransport e) s.
Proof. race_of RUser (RSender e) (user 0 [0;1;1;1;1;0;0;e]) [1;0;1;0] 2 7. Qed.
Lemma r_name e : exists s, possible s /\ race (VProcessName e) s.
Proof. race_of RUser (RTransport 0) (user 4 [e;0]) [0;1;0;0;0;0;1;1;1;1;1;0;e;0;0;0;0] 0 6. Qed.
Lemma r_sender e : exists s, possible s /\ race (VSenderRunning e) s.
Proof. race_of RUser (RSender e) (user 12 [0;1;1;e;0]) [1;0;0] 0 0. Qed.
Lemma r_polling m : exists s, possible s /\ race (VPolling m) s.
Proof. race_of RUser (RPoll m) (user 1 [m;1;1;1;0;1;0]) [1;0;0;0] 1 0. Qed.
Lemma r_mlogger m : exists s, possible s /\ race (VManagerLogger m) s.
Proof. race_of RUser (RPoll m) (user 1 [m;1;1;1;1]) [1;0;0;1;1;0;0;0;0;0;0] 0 4. Qed.
Lemma r_plogger p : exists s, possible s /\ race (VProviderLogger p) s.
Proof. race_of RUser (RSession 0) (user 3 [p;0]) [1;1;1;1;1;1;0;p;0;0;1;0] 0 15. Qed.
Lemma r_sources s : exists s', possible s' /\ race (VSessionSources s) s'.
Proof. race_of (RServer 0) (RSession s) [1;1;0;1;s;1;0] [1;0;1] 5 4. Qed.
Lemma r_srunning s : exists s', possible s' /\ race (VSessionRunning s) s'.
Proof. race_of (RServer 0) (RSession s) [1;1;1;1;0;1;s;0;0] [1;0;0] 3 0. Qed.
Lemma r_providers b : exists s, possible s /\ race (VProviders b) s.
Proof. race_of RUser (RServer b) (user 2 [b;0]) [1;1;0;1;0;1;0] 0 4. Qed.
Lemma r_blogger b : exists s, possible s /\ race (VBackendLogger b) s.
Proof. race_of RUser (RServer b) (user 2 [b;1;0]) [1;0] 0 0. Qed.
Lemma r_registered n : exists s, possible s /\ race (VRegistered n) s.
Proof. race_of RUser RUser (user 15 [n;1;0;0;0]) (user 15 [n;0;0;0]) 1 0. Qed.
Lemma r_parser p : exists s, possible s /\ race (VParserLogger p) s.
Proof. race_of RUser (RParser p) (user 3 [p;1]) [1;0;1] 0 0. Qed.
Lemma r_callback c : exists s, possible s /\ race (VCallback c) s.
Proof. race_of RUser (RParser 0) (user 5 [0;1;1;1;1;1;1;0;c;1]) [1;1;1;c;1;0;0] 2 2. Qed.
Lemma r_events c : exists s, possible s /\ race (VEvents c) s.
Proof. race_of RUser (RParser 0) (user 5 [0;1;1;1;1;1;1;1;0;c;0;0]) [1;1;1;c;1;1;0] 2 3. Qed.
(** Thread 1 takes a free mutex, does one thing and gives it back. *)
Lemma section1 s l o r x : (forall k, holders s k = []) -> todo s 0 = x -> todo s 1 = Acq Excl l :: o :: Rel Excl l :: r -> (exists v, o = Get v \/ o = Put v) ->
  exists s', run [1; 1; 1] s = Some s' /\ (forall k, holders s' k = []) /\ todo s' 0 = x /\ todo s' 1 = r.
Proof.
  intros Hh H0 H1 (v & Ho). cbn [run]. unfold step at 1. rewrite H1, Hh. cbn [free]. unfold step at 1. cbn [todo next Nat.eq_dec nat_rec nat_rect].
  set (a := next (todo s) 1 (o :: Rel Excl l :: r) 1). assert (a = o :: Rel Excl l :: r) as -> by reflexivity.
  destruct Ho as [-> | ->]; cbn [holders]; unfold step; cbn [todo]; eexists; (split; [reflexivity|]); cbn [holders todo]; (split; [|split; [exact H0|reflexivity]]); intros k; unfold give;
    (destruct (lock_dec k l) as [->|Hk]; [destruct (lock_dec l l); [reflexivity|congruence]|apply Hh]).
Qed.
Lemma run_more a : forall b s, run (a ++ b) s = match run a s with Some s' => run b s' | None => None end.
Proof. induction a as [|t a IH]; intros b s; cbn [run app]; [reflexivity|]. destruct (step t s); [apply IH|reflexivity]. Qed.
Lemma r_clients t : exists s, possible s /\ race (VClients t) s.
Proof.
  pose (x := [Put (VClients t)]). pose (y := [Get (VRunning t); Acq Excl (LRequest t); Put (VOngoing t); Rel Excl (LRequest t); Acq Excl (LBroadcast t); Get (VBroadcasts t); Rel Excl (LBroadcast t);
    Acq Excl (LBroadcast t); Put (VBroadcasts t); Rel Excl (LBroadcast t); Get (VClients t); Acq Excl (LBroadcast t); Get (VBroadcasts t); Rel Excl (LBroadcast t)]).
  eapply (witness RUser (RTransport t) (user 10 [1;t]) [1;1;0;1;1;0] 0 10 (VClients t) x y); [now right|now right|reflexivity|reflexivity| |left; split; [reflexivity|left; reflexivity]].
  change (turns 0 10) with ([1] ++ [1; 1; 1] ++ [1; 1; 1] ++ [1; 1; 1]).
  assert (E1 : exists s, run [1] (begin (both x y)) = Some s /\ (forall k, holders s k = []) /\ todo s 0 = x /\ todo s 1 = tl y) by (eexists; split; [reflexivity|split; [|split]; reflexivity]).
  destruct E1 as (s1 & E1 & A1 & B1 & C1). rewrite run_more, E1. cbn [tl] in C1.
  destruct (section1 s1 _ _ _ _ A1 B1 C1 (ex_intro _ _ (or_intror eq_refl))) as (s2 & E2 & A2 & B2 & C2). rewrite run_more, E2.
  destruct (section1 s2 _ _ _ _ A2 B2 C2 (ex_intro _ _ (or_introl eq_refl))) as (s3 & E3 & A3 & B3 & C3). rewrite run_more, E3.
  destruct (section1 s3 _ _ _ _ A3 B3 C3 (ex_intro _ _ (or_intror eq_refl))) as (s4 & E4 & A4 & B4 & C4). rewrite E4. cbn [ahead]. rewrite B4, C4. reflexivity.
Qed.

Theorem careless_races x : careless x = true -> exists s, possible s /\ race x s.
Proof.
  destruct x; try discriminate; intros _;
    eauto using r_endpoints, r_logger, r_fd, r_running, r_servers, r_transport, r_name, r_sender, r_polling, r_mlogger, r_plogger, r_sources, r_srunning, r_providers, r_blogger, r_registered, r_parser, r_callback, r_events, r_clients.
Qed.

(** Two threads at once in a table with a shared lock; one waits for the other at the queue of broadcasts. *)
Definition state_of (a b : role) (ca cb : list nat) (n m : nat) : option state :=
  match pick (thread_code (two a b) quiet 0) ca, pick (thread_code (two a b) quiet 1) cb with
  | Some (x, _), Some (y, _) => run (turns n m) (begin (both x y))
  | _, _ => None
  end.
Lemma state_possible a b ca cb n m s : a <> b \/ a = RUser -> b <> RUser \/ a = RUser -> state_of a b ca cb n m = Some s -> possible s.
Proof.
  intros Hab Hb E. unfold state_of in E. destruct (pick _ ca) as [[x ra]|] eqn:Ea; [|discriminate]. destruct (pick _ cb) as [[y rb]|] eqn:Eb; [|discriminate].
  exists (two a b), quiet, (both x y). split; [|split; [apply quiet_user|split]].
  - intros [|[|t]] [|[|u]]; cbn [two]; intros H; auto; destruct Hab, Hb; subst; auto; congruence.
  - intros [|[|t]] H; cbn [both] in *; [eapply pick_trace, Ea|eapply pick_trace, Eb|congruence].
  - exists (turns n m). exact E.
Qed.
Definition checked (f : state -> bool) (o : option state) : bool := match o with Some s => f s | None => false end.
Definition reads_table (s : state) (t : nat) : bool := match todo s t with Get (VTable 2) :: _ => true | _ => false end.
Definition waits_queue (s : state) : bool :=
  match todo s 0, todo s 1, step 1 s with Put (VBroadcasts 4) :: _, Acq Excl (LBroadcast 4) :: _, None => true | _, _, _ => false end.
Lemma two_readers : exists s, possible s /\ touches s 0 (VTable 2) /\ touches s 1 (VTable 2).
Proof.
  assert (E : checked (fun s => reads_table s 0 && reads_table s 1) (state_of RUser RUser (user 15 [0;0;0;1;2;0]) (user 15 [0;0;0;1;2;0]) 2 2) = true) by (vm_compute; reflexivity).
  destruct (state_of _ _ _ _ _ _) as [s|] eqn:Es in E; [|discriminate]. cbn [checked] in E. apply andb_true_iff in E. destruct E as [E0 E1]. exists s. split; [eapply state_possible; [..|exact Es]; now right|].
  unfold reads_table in *. unfold touches. split.
  - destruct (todo s 0) as [|[| |[]| |] r]; try discriminate. destruct k as [|[|[|]]]; try discriminate. eauto.
  - destruct (todo s 1) as [|[| |[]| |] r]; try discriminate. destruct k as [|[|[|]]]; try discriminate. eauto.
Qed.
Lemma one_waits : exists s, possible s /\ writes s 0 (VBroadcasts 4) /\ todo s 1 <> [] /\ step 1 s = None.
Proof.
  assert (E : checked waits_queue (state_of RUser (RTransport 4) (user 0 [4;1;1;1;0]) [0;1;0;0;0;0;0;0] 1 4) = true) by (vm_compute; reflexivity).
  destruct (state_of _ _ _ _ _ _) as [s|] eqn:Es in E; [|discriminate]. cbn [checked] in E. exists s. split; [eapply state_possible; [now right|now right|exact Es]|].
  unfold waits_queue in E. unfold writes. destruct (todo s 0) as [|[| | |x|] r]; try discriminate. destruct x; try discriminate. destruct t as [|[|[|[|[|]]]]]; try discriminate.
  destruct (todo s 1) as [|o r']; [discriminate|]. split; [eauto|]. split; [congruence|]. destruct o as [[] l| | | |]; try discriminate. destruct l; try discriminate.
  destruct t as [|[|[|[|[|]]]]]; try discriminate. destruct (step 1 s); [discriminate|reflexivity].
Qed.
(** Callbacks that use the library. *)
Definition busy (roles : nat -> role) : callbacks :=
  {| cb_log := Seq (api roles quiet) (Write (VUser 0)); cb_name := Nop; cb_handle := fun _ => Many (api roles quiet); cb_unsolicited := fun t => Locked Excl (LUser t) (Read (VUser t));
     cb_factory := api roles quiet; cb_source := Locked Excl LGil (api roles quiet) |}.
Lemma busy_user roles : user_callbacks roles (busy roles).
Proof.
  assert (A : user_code roles (api roles quiet)) by (apply uc_call; intros; constructor). unfold user_callbacks. cbn [busy cb_log cb_name cb_handle cb_unsolicited cb_factory cb_source].
  repeat split; repeat constructor; exact A.
Qed.
