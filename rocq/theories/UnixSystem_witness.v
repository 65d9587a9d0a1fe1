(** Concrete schedules of the system of [UnixSystem_model]: witnesses for C04-C09. *)
From Coq Require Import List Arith NArith Ascii Bool Lia.
Import ListNotations.
From Verif Require Import Protocol_model UnixSystem_model UnixSystem_spec UnixSystem_proofs.

Definition b_e : bytes := ["e"%char].
Definition b_x : bytes := ["x"%char].
Definition b_p : bytes := ["p"%char].
Definition b_q : bytes := ["q"%char].
Definition b_A : bytes := ["A"; "1"]%char.
Definition b_B : bytes := ["B"; "2"; "3"]%char.

Definition after (ls : list label) : sys := match run ls sys0 with Some s => s | None => sys0 end.
Lemma after_reached P ls : Forall P ls -> (if run ls sys0 then true else false) = true -> reached P (after ls).
Proof. intros HF H. exists ls. split; [exact HF|]. unfold after. destruct (run ls sys0); [reflexivity|discriminate]. Qed.
Ltac reach := apply after_reached; [repeat constructor; cbn; try congruence|vm_compute; reflexivity].

(** Two clients, the same request ids, answers out of order between the clients. *)
Definition sc_normal : list label :=
  [AddServerEp b_e; Connect 0; Connect 1; Accept 1; Accept 0; ReqTake 0 b_e b_p; ReqTake 1 b_e b_q; ReqSend 1 0 true; ReqSend 0 0 true;
   ReqBook 0 0; SrvRecv 0 (Some b_A); ReqBook 1 0; SrvRecv 1 (Some b_B); CliRecv 1 None; CliRecv 0 None].

(** The client has an endpoint of the same name that answers unsolicited messages; the answer to its request
    arrives before the request is booked, the endpoint replies, and the server takes the reply for a request. *)
Definition sc_race : list label :=
  [AddServerEp b_e; Connect 0; AddClientEp 0 b_e; Accept 0; ReqTake 0 b_e b_p; ReqSend 0 0 true; SrvRecv 0 (Some b_A);
   CliRecv 0 (Some b_x); ReqBook 0 0; SrvRecv 0 (Some b_B); CliRecv 0 None].
Lemma race_witness : exists s q, reached (fun _ => True) s /\ request_of s 0 0 q /\ r_data q = b_p /\ r_val q = Value b_B /\
  In (0, {| req_id := r_id q; ep_name := b_e; payload := b_p |}, Some b_A) (s_calls s) /\
  ~ In (0, {| req_id := r_id q; ep_name := b_e; payload := b_p |}, Some b_B) (s_calls s).
Proof.
  exists (after sc_race). eexists. split; [apply after_reached; [apply Forall_forall; auto|vm_compute; reflexivity]|].
  split; [vm_compute; reflexivity|]. split; [reflexivity|]. split; [reflexivity|]. split.
  - vm_compute. left. reflexivity.
  - vm_compute. intros [H|[H|[]]]; discriminate.
Qed.

(** The server dies while it sends the answer. *)
Definition sc_dying (j : nat) : list label :=
  [AddServerEp b_e; Connect 0; Accept 0; ReqTake 0 b_e b_p; ReqSend 0 0 true; ReqBook 0 0; SrvCrashSending 0 b_B j; CliRecv 0 None].
Lemma dying_witness j d : (j = 0 /\ d = []) \/ (j = 2 /\ d = ["B"; "2"]%char) ->
  exists s q, reached (fun _ => True) s /\ request_of s 0 0 q /\ r_val q = Value d /\
    In (0, msg_of q, Some b_B) (s_calls s) /\ d <> b_B.
Proof.
  intros [[-> ->]|[-> ->]].
  - exists (after (sc_dying 0)). eexists. split; [apply after_reached; [apply Forall_forall; auto|vm_compute; reflexivity]|].
    split; [vm_compute; reflexivity|]. split; [reflexivity|]. split; [vm_compute; left; reflexivity|discriminate].
  - exists (after (sc_dying 2)). eexists. split; [apply after_reached; [apply Forall_forall; auto|vm_compute; reflexivity]|].
    split; [vm_compute; reflexivity|]. split; [reflexivity|]. split; [vm_compute; left; reflexivity|discriminate].
Qed.

(** No step can help a request whose answer came before it was booked. *)
Definition never_ready (c : nat) (s : sys) (r : nat) : Prop := forall ls s', Forall (fair_to c) ls -> ~ In (CliClose c) ls ->
  run ls s = Some s' -> exists q', request_of s' c r q' /\ r_val q' = Unready.

Definition sc_early : list label :=
  [AddServerEp b_e; Connect 0; Accept 0; ReqTake 0 b_e b_p; ReqSend 0 0 true; SrvRecv 0 (Some b_A); CliRecv 0 None; ReqBook 0 0].
Definition sc_unknown : list label :=
  [Connect 0; Accept 0; ReqTake 0 b_e b_p; ReqSend 0 0 true; ReqBook 0 0; SrvRecv 0 None].
Definition sc_lost : list label :=
  [AddServerEp b_e; Connect 0; Accept 0; ReqTake 0 b_e b_p; ReqSend 0 0 true; ReqBook 0 0; SrvCrash; CliRecv 0 None].

Lemma stuck_witness ls : Forall (fair_to 0) ls -> (if run ls sys0 then true else false) = true ->
  (exists q, nth_error (c_reqs (s_cl (after ls) 0)) 0 = Some q /\ r_stage q = Booked /\ r_val q = Unready /\ r_held q = true) ->
  c_run (s_cl (after ls) 0) = false \/ (c_in (s_cl (after ls) 0) = [] /\ c_out (s_cl (after ls) 0) = []) ->
  reached (fair_to 0) (after ls) /\ (exists q, request_of (after ls) 0 0 q /\ r_stage q = Booked /\ r_held q = true) /\ never_ready 0 (after ls) 0.
Proof.
  intros HF HR (q & H1 & H2 & H3 & H4) HW. assert (R : reached (fair_to 0) (after ls)) by (apply after_reached; auto).
  split; [exact R|]. split; [exists q; auto|]. intros ls' s' HF' HC E.
  apply (stuck_forever 0 ls' (after ls) s' 0 q); auto. destruct HW as [HW|[W1 W2]]; [now left|right].
  intros (m & g & Hin & _). rewrite W1, W2 in Hin. contradiction.
Qed.

Lemma early_witness : exists s, reached (fair_to 0) s /\ (exists q, request_of s 0 0 q /\ r_stage q = Booked /\ r_held q = true) /\
  never_ready 0 s 0 /\ s_up s = true /\ s_conn s 0 = Accepted /\ c_open (s_cl s 0) = true /\
  exists m, s_calls s = [(0, m, Some b_A)].
Proof.
  exists (after sc_early). destruct (stuck_witness sc_early) as (H1 & H2 & H3).
  - repeat constructor.
  - vm_compute. reflexivity.
  - eexists. split; [vm_compute; reflexivity|]. auto.
  - right. vm_compute. auto.
  - split; [exact H1|]. split; [exact H2|]. split; [exact H3|]. repeat split. eexists. vm_compute. reflexivity.
Qed.
Lemma unknown_witness : exists s, reached (fair_to 0) s /\ (exists q, request_of s 0 0 q /\ r_stage q = Booked /\ r_held q = true) /\
  never_ready 0 s 0 /\ s_up s = true /\ s_conn s 0 = Accepted /\ c_open (s_cl s 0) = true.
Proof.
  exists (after sc_unknown). destruct (stuck_witness sc_unknown) as (H1 & H2 & H3).
  - repeat constructor.
  - vm_compute. reflexivity.
  - eexists. split; [vm_compute; reflexivity|]. auto.
  - right. vm_compute. auto.
  - split; [exact H1|]. split; [exact H2|]. split; [exact H3|]. repeat split.
Qed.
Lemma lost_witness : exists s, reached (fair_to 0) s /\ (exists q, request_of s 0 0 q /\ r_stage q = Booked /\ r_held q = true) /\
  never_ready 0 s 0 /\ c_open (s_cl s 0) = false /\ c_run (s_cl s 0) = false.
Proof.
  exists (after sc_lost). destruct (stuck_witness sc_lost) as (H1 & H2 & H3).
  - repeat constructor.
  - vm_compute. reflexivity.
  - eexists. split; [vm_compute; reflexivity|]. auto.
  - left. vm_compute. auto.
  - split; [exact H1|]. split; [exact H2|]. split; [exact H3|]. repeat split.
Qed.

(** Two broadcasts made one after the other arrive in reverse. *)
Definition sc_lifo : list label :=
  [Connect 0; AddClientEp 0 b_e; Accept 0; MakeBcast b_e b_A; MakeBcast b_e b_B; DispBcast; DispBcast; CliRecv 0 None; CliRecv 0 None].
Lemma lifo_witness : exists s, reached any_step s /\ s_made s = [(b_e, b_A); (b_e, b_B)] /\
  map (fun e => payload (fst (fst e))) (c_log (s_cl s 0)) = [b_B; b_A] /\
  Forall (fun e => snd e = Unsolicited) (c_log (s_cl s 0)).
Proof.
  exists (after sc_lifo). split; [reach; exact I|]. split; [vm_compute; reflexivity|]. split; [vm_compute; reflexivity|].
  vm_compute. repeat constructor.
Qed.

(** A client whose [connect] has succeeded but which is not accepted yet gets no broadcast. *)
Definition sc_backlog : list label := [Connect 0; AddClientEp 0 b_e; MakeBcast b_e b_A; DispBcast; Accept 0].
Lemma backlog_witness : exists s, reached any_step s /\ c_open (s_cl s 0) = true /\ s_disp s = [(b_e, b_A)] /\ c_rx (s_cl s 0) = [].
Proof. exists (after sc_backlog). split; [reach; exact I|]. vm_compute. auto. Qed.

(** A dispatch reaches nobody but accepted clients. *)
Lemma dispatch_only_accepted s s' c : step DispBcast s = Some s' -> s_conn s c <> Accepted -> s_cl s' c = s_cl s c.
Proof.
  cbn [step]. destruct (negb (s_up s)); [discriminate|]. destruct (rev (s_queue s)) as [|[n d] rq]; [discriminate|].
  intros E H. injection E as <-. cbn. destruct (s_conn s c); try reflexivity. congruence.
Qed.

(** After the connection is lost new requests fail at once. *)
Lemma fails_when_lost s c n d : c_born (s_cl s c) = true -> c_open (s_cl s c) = false ->
  forall ok, exists s' q, run [ReqTake c n d; ReqSend c (length (c_reqs (s_cl s c))) ok] s = Some s' /\
    request_of s' c (length (c_reqs (s_cl s c))) q /\ r_val q = CommError.
Proof.
  intros Hb Ho ok. cbn [run step]. rewrite Hb. cbn [negb].
  set (x := set_next _ _). assert (E : s_cl (with_cl c x s) c = x) by (cbn; apply upd_same). rewrite E.
  assert (N : nth_error (c_reqs x) (length (c_reqs (s_cl s c))) =
     Some {| r_id := c_next (s_cl s c); r_name := n; r_data := d; r_stage := Taken; r_held := true; r_val := Unready |}).
  { subst x. cbn. rewrite nth_error_app2, Nat.sub_diag by lia. reflexivity. }
  rewrite N. cbn [r_stage]. replace (c_open x) with false by (subst x; cbn; congruence). cbn [andb].
  eexists. eexists. split; [reflexivity|]. split.
  - unfold request_of. cbn [s_cl with_cl]. rewrite upd_same. cbn [c_reqs set_reqs]. apply set_nth_same. eapply nth_error_lt. exact N.
  - reflexivity.
Qed.

(** A non-trivial run for C06 and C09. *)
Definition sc_pending : list label :=
  [AddServerEp b_e; Connect 0; Accept 0; ReqTake 0 b_e b_p; ReqSend 0 0 true; ReqBook 0 0; ReqTake 0 b_e b_q; ReqSend 0 1 true; ReqBook 0 1;
   ReqTake 0 b_e b_q; ReqSend 0 2 false; ReqTake 0 b_e b_x; ReqSend 0 3 true; ReqBook 0 3; SrvRecv 0 (Some b_A); CliRecv 0 None; Drop 0 1].
Lemma pending_witness : exists s s', reached any_step s /\ step (CliCleanup 0) s = Some s' /\
  pending_requests s 0 = 2 /\ pending_requests s' 0 = 1 /\ length (c_reqs (s_cl s' 0)) = 4.
Proof. exists (after sc_pending). eexists. split; [reach; exact I|]. split; [reflexivity|]. vm_compute. auto. Qed.

Definition sc_two : list label :=
  [AddServerEp b_e; Connect 0; Connect 1; Accept 1; CliRaw 1 Bad; Accept 0; ReqTake 0 b_e b_p; SrvRecv 1 None; ReqSend 0 0 true; ReqBook 0 0;
   CliClose 1; SrvRecv 0 (Some b_A); CliRecv 0 None].
Lemma two_witness : run sc_two sys0 <> None /\ (forall c d j, (c =? 1) = true -> ~ In (SrvCrashSending c d j) sc_two) /\
  length (filter (fun l => negb (about (fun c => c =? 1) l)) sc_two) = 8.
Proof.
  split; [vm_compute; discriminate|]. split; [|vm_compute; reflexivity]. intros c d j _ H. cbn in H.
  repeat destruct H as [H|H]; try discriminate; contradiction.
Qed.
