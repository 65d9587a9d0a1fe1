(** Concrete cases for C105, and the counterexamples. *)
From Coq Require Import List Arith NArith ZArith Ascii Bool Lia.
Import ListNotations.
From Verif Require Import Protocol_model UnixSystem_model UnixSystem_spec UnixSystem_proofs UnixSystem_witness Linear_model Linear_spec Linear_proofs LinearUse_proofs.
From Verif Require Json_model PyJson_model PyJson_spec PyText_proofs PyJson_proofs.

Section Use.
Context {St Op : Type}.
Variable handle : bytes -> bytes -> St -> St * result.
Variable own : Op -> St -> St.

Lemma linearizable : forall st ls s, lrun handle own ls (lsys0 st) = Some s -> exists order, linear handle own st ls s order.
Proof. intros st ls s H. eexists. exact (linear_run handle own st ls s H). Qed.

Lemma legal_split (a : list (entry Op)) : forall b st st2, legal handle own st (a ++ b) st2 -> exists st1, legal handle own st a st1 /\ legal handle own st1 b st2.
Proof.
  induction a as [|e a IH]; intros b st st2 H; cbn [app] in H; [exists st; split; [constructor|exact H]|]. inversion H as [|? a1 ? ? ? ? ? Hh Hl|? ? ? ? Hl]; subst.
  - destruct (IH _ _ _ Hl) as (x & X & Y). exists x. split; [econstructor; eauto|exact Y].
  - destruct (IH _ _ _ Hl) as (x & X & Y). exists x. split; [econstructor; eauto|exact Y].
Qed.
(** The value of a request is what the endpoint answers in the state of that moment. *)
Lemma value_at st ls s c k q d : lrun handle own ls (lsys0 st) = Some s -> Forall (fair c) ls -> request_of (l_net s) c k q -> r_val q = Value d ->
  exists order x y st1 st2, linear handle own st ls s order /\ order = x ++ Call c (msg_of q) (Answer d) :: y /\
    legal handle own st x st1 /\ handle (r_name q) (r_data q) st1 = (st2, Answer d) /\ legal handle own st2 y (l_state s).
Proof.
  intros H F Hq V. destruct (linearizable st ls s H) as (order & L). pose proof (ln_value _ _ _ _ _ _ L c k q d F Hq V) as E.
  assert (Hin : In (msg_of q, Answer d) (calls_of c (r_id q) order)) by (rewrite E; left; reflexivity). apply in_calls_of in Hin. destruct Hin as (Hin & _).
  apply in_split in Hin. destruct Hin as (x & y & ->). pose proof (ln_legal _ _ _ _ _ _ L) as G. destruct (legal_split _ _ _ _ G) as (st1 & G1 & G2). inversion G2 as [|? a1 ? ? ? ? ? Hh Hl|]; subst.
  exists (x ++ Call c (msg_of q) (Answer d) :: y), x, y, st1, a1. auto.
Qed.
(** Without a value from [handle] there is none for the request. *)
Lemma no_value st ls s order c k q r : linear handle own st ls s order -> Forall (fair c) ls -> request_of (l_net s) c k q -> In (Call c (msg_of q) r) order -> forall d, r_val q = Value d -> r = Answer d.
Proof.
  intros L F Hq Hin d V. pose proof (ln_value _ _ _ _ _ _ L c k q d F Hq V) as E. assert (X : In (msg_of q, r) (calls_of c (r_id q) order)) by (apply in_calls_of; auto).
  rewrite E in X. destruct X as [X|[]]. injection X as ->. reflexivity.
Qed.
End Use.

(** ** Endpoints written in Python *)
Lemma python {F St Op} (method : bytes -> PyJson_model.py F -> St -> St * option (PyJson_model.py F)) (own : Op -> St -> St) :
  (forall n p st st' t, method n p st = (st', Some (PyJson_model.PStr t)) -> PyJson_spec.a_str t) ->
  forall st ls s c k q d, lrun (py_handle method) own ls (lsys0 st) = Some s -> Forall (fair c) ls -> request_of (l_net s) c k q -> r_val q = Value d ->
  exists order x y st1 st2 v, linear (py_handle method) own st ls s order /\ order = x ++ Call c (msg_of q) (Answer d) :: y /\
    legal (py_handle method) own st x st1 /\ method (r_name q) (PyJson_model.PBytes (r_data q)) st1 = (st2, Some v) /\ PyJson_spec.says v d /\ legal (py_handle method) own st2 y (l_state s).
Proof.
  intros Hs st ls s c k q d H Fa Hq V. destruct (value_at _ _ st ls s c k q d H Fa Hq V) as (order & x & y & st1 & st2 & L & E & Lx & Hd & Ly).
  unfold py_handle, PyJson_model.of_data in Hd. destruct (method (r_name q) (PyJson_model.PBytes (r_data q)) st1) as [st3 [v|]] eqn:M; [|discriminate Hd].
  destruct (PyJson_model.to_data v) as [| |] eqn:T; try discriminate Hd. injection Hd as -> ->. exists order, x, y, st1, st2, v. split; [exact L|]. split; [exact E|]. split; [exact Lx|]. split; [exact M|]. split; [|exact Ly].
  apply (PyJson_proofs.payload_exact v d); [|exact T]. intros t ->. exact (Hs _ _ _ _ _ M).
Qed.

(** ** A counter *)
(** Every request is answered with the count, which goes up by one; [Own n] sets it. *)
Definition count (name data : bytes) (n : nat) : nat * result := (S n, Answer [ascii_of_nat n]).
Definition put_n (n : nat) (_ : nat) : nat := n.
Definition sc : list (llabel nat) :=
  [Net (AddServerEp b_e); Net (Connect 0); Net (Connect 1); Net (Accept 1); Net (Accept 0);
   Net (ReqTake 0 b_e b_p); Net (ReqTake 1 b_e b_q); Net (ReqSend 1 0 true); Net (ReqSend 0 0 true); Net (ReqBook 0 0); Net (ReqBook 1 0);
   Serve 0; Own 65; Serve 1; Net (CliRecv 1 None); Net (CliRecv 0 None);
   Net (ReqTake 0 b_e b_q); Net (ReqSend 0 1 true); Net (ReqBook 0 1); Serve 0; Net (CliRecv 0 None)].
Definition lafter {St Op} (h : bytes -> bytes -> St -> St * result) (o : Op -> St -> St) st ls : lsys St := match lrun h o ls (lsys0 st) with Some s => s | None => lsys0 st end.
Lemma counter_case : exists s, lrun count put_n sc (lsys0 48) = Some s /\ (forall c, Forall (fair c) sc) /\ l_state s = 67 /\
  map r_val (c_reqs (s_cl (l_net s) 0)) = [Value ["0"]%char; Value ["B"]%char] /\ map r_val (c_reqs (s_cl (l_net s) 1)) = [Value ["A"]%char] /\
  trace count put_n sc (lsys0 48) = [Call 0 {| req_id := 1; ep_name := b_e; payload := b_p |} (Answer ["0"]%char); Did 65;
    Call 1 {| req_id := 1; ep_name := b_e; payload := b_q |} (Answer ["A"]%char); Call 0 {| req_id := 2; ep_name := b_e; payload := b_q |} (Answer ["B"]%char)].
Proof.
  exists (lafter count put_n 48 sc). split; [vm_compute; reflexivity|]. split; [intros c; repeat constructor|]. split; [vm_compute; reflexivity|]. split; [vm_compute; reflexivity|]. split; vm_compute; reflexivity.
Qed.

(** ** What is not so *)
(** An endpoint in Python that returns a number: the request it was called for never gets anything, although all is well. *)
Definition numbers (name : bytes) (data : PyJson_model.py unit) (n : nat) : nat * option (PyJson_model.py unit) := (S n, Some (PyJson_model.PInt (Z.of_nat n))).
Definition sc_num : list (llabel nat) :=
  [Net (AddServerEp b_e); Net (Connect 0); Net (Accept 0); Net (ReqTake 0 b_e b_p); Net (ReqSend 0 0 true); Net (ReqBook 0 0); Serve 0].
Lemma lnever {St Op} (h : bytes -> bytes -> St -> St * result) (o : Op -> St -> St) st ls s c r q : lrun h o ls (lsys0 st) = Some s -> Forall (fair c) ls -> request_of (l_net s) c r q -> r_stage q = Booked -> r_val q = Unready ->
  c_run (s_cl (l_net s) c) = false \/ (c_in (s_cl (l_net s) c) = [] /\ c_out (s_cl (l_net s) c) = []) -> never_ready c (l_net s) r.
Proof.
  intros H F Hq Hb Hv HW ls' s' HF' HC E. apply (stuck_forever c ls' (l_net s) s' r q); auto; [exact (net_reached _ _ _ _ _ _ H F)|].
  destruct HW as [HW|[W1 W2]]; [now left|right]. intros (m & g & Hin & _). rewrite W1, W2 in Hin. contradiction.
Qed.
Lemma silent : exists s q order, lrun (py_handle numbers) put_n sc_num (lsys0 7) = Some s /\ linear (py_handle numbers) put_n 7 sc_num s order /\
  request_of (l_net s) 0 0 q /\ In (Call 0 (msg_of q) NoAnswer) order /\ s_up (l_net s) = true /\ s_conn (l_net s) 0 = Accepted /\ c_open (s_cl (l_net s) 0) = true /\ never_ready 0 (l_net s) 0.
Proof.
  exists (lafter (py_handle numbers) put_n 7 sc_num). eexists. exists (trace (py_handle numbers) put_n sc_num (lsys0 7)).
  assert (R : lrun (py_handle numbers) put_n sc_num (lsys0 7) = Some (lafter (py_handle numbers) put_n 7 sc_num)) by (vm_compute; reflexivity).
  assert (F : Forall (fair 0) sc_num) by (repeat constructor).
  assert (Q : request_of (l_net (lafter (py_handle numbers) put_n 7 sc_num)) 0 0 {| r_id := 1; r_name := b_e; r_data := b_p; r_stage := Booked; r_held := true; r_val := Unready |}) by (vm_compute; reflexivity).
  split; [exact R|]. split; [exact (linear_run _ _ _ _ _ R)|]. split; [exact Q|]. split; [vm_compute; left; reflexivity|]. split; [vm_compute; reflexivity|]. split; [vm_compute; reflexivity|]. split; [vm_compute; reflexivity|].
  refine (lnever _ _ _ _ _ _ _ _ R F Q eq_refl eq_refl _). right. vm_compute. auto.
Qed.
(** An endpoint in Python that raises for one client: the server is gone, also for the others. *)
Definition picky (name : bytes) (data : PyJson_model.py unit) (n : nat) : nat * option (PyJson_model.py unit) :=
  match data with PyJson_model.PBytes b => if bytes_eqb b b_q then (n, None) else (S n, Some data) | _ => (n, Some data) end.
Definition sc_picky : list (llabel nat) :=
  [Net (AddServerEp b_e); Net (Connect 0); Net (Connect 1); Net (Accept 1); Net (Accept 0);
   Net (ReqTake 0 b_e b_p); Net (ReqTake 1 b_e b_q); Net (ReqSend 1 0 true); Net (ReqSend 0 0 true); Net (ReqBook 0 0); Net (ReqBook 1 0);
   Serve 1; Net (CliRecv 0 None)].
Lemma raises : exists s q, lrun (py_handle picky) put_n sc_picky (lsys0 0) = Some s /\ (forall c, Forall (fair c) sc_picky) /\
  request_of (l_net s) 0 0 q /\ r_data q = b_p /\ snd (picky b_e (PyJson_model.PBytes b_p) (l_state s)) = Some (PyJson_model.PBytes b_p) /\ s_up (l_net s) = false /\ never_ready 0 (l_net s) 0.
Proof.
  exists (lafter (py_handle picky) put_n 0 sc_picky). eexists.
  assert (R : lrun (py_handle picky) put_n sc_picky (lsys0 0) = Some (lafter (py_handle picky) put_n 0 sc_picky)) by (vm_compute; reflexivity).
  assert (F : forall c, Forall (fair c) sc_picky) by (intros c; repeat constructor).
  assert (Q : request_of (l_net (lafter (py_handle picky) put_n 0 sc_picky)) 0 0 {| r_id := 1; r_name := b_e; r_data := b_p; r_stage := Booked; r_held := true; r_val := Unready |}) by (vm_compute; reflexivity).
  split; [exact R|]. split; [exact F|]. split; [exact Q|]. split; [reflexivity|]. split; [vm_compute; reflexivity|]. split; [vm_compute; reflexivity|].
  refine (lnever _ _ _ _ _ _ _ _ R (F 0) Q eq_refl eq_refl _). left. vm_compute. reflexivity.
Qed.
