(** Where things get stuck. *)
From Coq Require Import List Arith Bool Lia.
Import ListNotations.
From Verif Require Import Locks_model Locks_spec.

(** One trace of a function, by choices: which branch, whether once more, which object. *)
Fixpoint play (n : nat) (ch : list nat) (c : code) {struct n} : option (list op * list nat) :=
  match n with
  | 0 => None
  | S n' =>
      match c with
      | Nop => Some ([], ch)
      | Seq a b => match play n' ch a with Some (x, ch') => match play n' ch' b with Some (y, ch2) => Some (x ++ y, ch2) | None => None end | None => None end
      | Either a b => match ch with 0 :: ch' => play n' ch' a | _ :: ch' => play n' ch' b | [] => None end
      | Many a =>
          match ch with
          | 0 :: ch' => Some ([], ch')
          | _ :: ch' => match play n' ch' a with Some (x, ch2) => match play n' ch2 (Many a) with Some (y, ch3) => Some (x ++ y, ch3) | None => None end | None => None end
          | [] => None
          end
      | Any f => match ch with i :: ch' => play n' ch' (f i) | [] => None end
      | Locked l a => match play n' ch a with Some (x, ch') => Some (Acq l :: x ++ [Rel l], ch') | None => None end
      | Join t => Some ([Wait t], ch)
      end
  end.
Lemma play_trace n : forall ch c x ch', play n ch c = Some (x, ch') -> trace c x.
Proof.
  induction n as [|n IH]; [discriminate|]. intros ch c x ch' E. destruct c as [|a b|a b|a|f|l a|t]; cbn [play] in E.
  - injection E as <- <-. constructor.
  - destruct (play n ch a) as [[y c1]|] eqn:E1; [|discriminate]. destruct (play n c1 b) as [[z c2]|] eqn:E2; [|discriminate]. injection E as <- <-. constructor; eauto.
  - destruct ch as [|[|k] ch]; [discriminate| |]; [apply tr_left|apply tr_right]; eauto.
  - destruct ch as [|[|k] ch]; [discriminate| |]; [injection E as <- <-; constructor|]. destruct (play n ch a) as [[y c1]|] eqn:E1; [|discriminate].
    destruct (play n c1 (Many a)) as [[z c2]|] eqn:E2; [|discriminate]. injection E as <- <-. constructor; eauto.
  - destruct ch as [|i ch]; [discriminate|]. econstructor; eauto.
  - destruct (play n ch a) as [[y c1]|] eqn:E1; [|discriminate]. injection E as <- <-. constructor. eauto.
  - injection E as <- <-. constructor.
Qed.

Definition quiet : callbacks := {| cb_log := Nop; cb_name := Nop; cb_handle := fun _ => Nop; cb_unsolicited := fun _ => Nop; cb_factory := Nop; cb_source := Nop |}.
Definition with_unsolicited (c : code) : callbacks := {| cb_log := Nop; cb_name := Nop; cb_handle := fun _ => Nop; cb_unsolicited := fun _ => c; cb_factory := Nop; cb_source := Nop |}.
Definition with_handle (c : code) : callbacks := {| cb_log := Nop; cb_name := Nop; cb_handle := fun _ => c; cb_unsolicited := fun _ => Nop; cb_factory := Nop; cb_source := Nop |}.
Definition with_factory (c : code) : callbacks := {| cb_log := Nop; cb_name := Nop; cb_handle := fun _ => Nop; cb_unsolicited := fun _ => Nop; cb_factory := c; cb_source := Nop |}.
(** Two threads, of these kinds, with these choices. *)
Definition two (a b : role) (t : nat) : role := match t with 0 => a | 1 => b | _ => RUser end.
Definition progs (n : nat) (roles : nat -> role) (cb : callbacks) (c0 c1 : list nat) (t : nat) : list op :=
  match t with
  | 0 => match play n c0 (thread_code roles cb 0) with Some (x, _) => x | None => [] end
  | 1 => match play n c1 (thread_code roles cb 1) with Some (x, _) => x | None => [] end
  | _ => []
  end.
Lemma progs_program n roles cb c0 c1 : program roles cb (progs n roles cb c0 c1).
Proof.
  split.
  - exists 2. intros [|[|t]] H; [lia|lia|reflexivity].
  - intros [|[|t]] H; cbn [progs] in *; [| |congruence].
    + destruct (play n c0 (thread_code roles cb 0)) as [[x r]|] eqn:E; [|congruence]. eapply play_trace, E.
    + destruct (play n c1 (thread_code roles cb 1)) as [[x r]|] eqn:E; [|congruence]. eapply play_trace, E.
Qed.
(** The two threads can be run to a point from which neither goes on. *)
Definition jammed (n : nat) (roles : nat -> role) (cb : callbacks) (c0 c1 : list nat) (ts : list nat) : bool :=
  match run ts (begin (progs n roles cb c0 c1)) with
  | Some s => match todo s 0, step 0 s, step 1 s with _ :: _, None, None => true | _, _, _ => false end
  | None => false
  end.
Lemma run_others ts : forall s s', (forall t, 2 <= t -> todo s t = []) -> run ts s = Some s' -> forall t, 2 <= t -> todo s' t = [].
Proof.
  induction ts as [|u ts IH]; intros s s' Hs E; cbn [run] in E; [now injection E as <-|]. destruct (step u s) as [s1|] eqn:E1; [|discriminate]. apply (IH s1); [|exact E].
  intros t Ht. unfold step in E1. destruct (todo s u) as [|o r] eqn:Eu; [discriminate|]. assert (t <> u) by (intros ->; rewrite Hs in Eu by auto; discriminate).
  assert (next (todo s) u r t = []). { unfold next. destruct (Nat.eq_dec t u); [contradiction|auto]. }
  destruct o as [l|l|v]; [destruct (owner s l); [discriminate|]|destruct (owner s l) as [w|]; [destruct (Nat.eq_dec w u); [|discriminate]|discriminate]|destruct (todo s v); [|discriminate]]; injection E1 as <-; assumption.
Qed.
Lemma jam n roles cb c0 c1 ts : jammed n roles cb c0 c1 ts = true -> exists prog s, program roles cb prog /\ reachable prog s /\ stuck s.
Proof.
  unfold jammed. destruct (run ts (begin (progs n roles cb c0 c1))) as [s|] eqn:E; [|discriminate]. intros H. exists (progs n roles cb c0 c1), s. split; [apply progs_program|]. split; [now exists ts|].
  assert (H2 : forall t, 2 <= t -> todo s t = []). { eapply (run_others ts _ s); [|exact E]. intros [|[|t]] Ht; [lia|lia|reflexivity]. }
  destruct (todo s 0) eqn:E0; [discriminate|]. destruct (step 0 s) eqn:S0; [discriminate|]. destruct (step 1 s) eqn:S1; [discriminate|]. split; [exists 0; congruence|].
  intros [|[|t]]; auto. unfold step. rewrite H2 by lia. reflexivity.
Qed.

(** A handler of broadcasts that sends a request on its transport. *)
Lemma handler_requests : exists prog s, program (two RTransport RUser) (with_unsolicited (request 0)) prog /\ reachable prog s /\ stuck s.
Proof.
  apply (jam 60 _ _ [1; 0; 0;   1; 1; 0;  1; 0;   0;  0;  0] [0] [0; 0; 0; 0]). vm_compute. reflexivity.
Qed.
(** A handler of a loopback that sends a request by the transport the request came on. *)
Lemma loopback_requests : exists prog s, program (two RTransport RUser) (with_handle (loopback_request 0)) prog /\ reachable prog s /\ stuck s.
Proof. apply (jam 60 _ _ [1; 0; 1; 1; 1; 0; 0; 0; 0] [0] [0; 0; 0]). vm_compute. reflexivity. Qed.
(** A factory that asks the manager for its endpoints. *)
Lemma factory_asks : exists prog s, program (two RPoll RUser) (with_factory (endpoints 0)) prog /\ reachable prog s /\ stuck s.
Proof. apply (jam 60 _ _ [1; 0;  0;  1; 3; 1; 1; 0; 0; 0; 0; 0; 0; 0; 0] [0] [0; 0; 0]). vm_compute. reflexivity. Qed.
(** A handler of broadcasts that asks the manager for its endpoints, while the manager drops the transport. *)
Lemma handler_asks : exists prog s, program (two RPoll RTransport) (with_unsolicited (endpoints 0)) prog /\ reachable prog s /\ stuck s.
Proof. apply (jam 60 _ _ [1; 0;  1; 1; 1; 0; 0; 0; 0] [1; 0; 0; 1; 1; 0; 0; 0; 0; 0] [1; 1; 0]). vm_compute. reflexivity. Qed.
(** Handlers and factories in Python. A request from Python, while a broadcast is handled in Python. *)
Lemma python_request : exists prog s, program (two RUser RTransport) (with_unsolicited (touch LGil)) prog /\ reachable prog s /\ stuck s.
Proof. apply (jam 60 _ _ [1; 1; 0; 1;  0; 0; 0; 0; 1; 0; 0] [1; 0; 0; 1; 1; 0; 0; 0; 0; 0] [0; 0; 0; 1; 1]). vm_compute. reflexivity. Qed.
(** The manager's endpoints are asked for in Python, while it calls a factory in Python. *)
Lemma python_factory : exists prog s, program (two RUser RPoll) (with_factory (touch LGil)) prog /\ reachable prog s /\ stuck s.
Proof. apply (jam 60 _ _ [1; 1; 0; 1;  1; 0; 0; 1; 0; 0; 0] [1; 0;  0;  1; 3; 1; 1; 0; 0; 0; 0; 0; 0; 0; 0] [0; 1; 1; 1]). vm_compute. reflexivity. Qed.
(** A transport is dropped in Python, while a request to it is handled in Python. *)
Lemma python_drop : exists prog s, program (two RUser RTransport) (with_handle (touch LGil)) prog /\ reachable prog s /\ stuck s.
Proof. apply (jam 60 _ _ [1; 1; 0; 1;  1; 1; 1; 1; 1; 0; 1; 1; 0; 0; 0] [1; 0; 0; 0; 1; 0; 0; 0; 0; 0] [0]). vm_compute. reflexivity. Qed.

(** Not stuck although busy: Python requests and drops a transport, the poll thread connects. *)
Lemma harmless_quiet : all_harmless quiet.
Proof. cbn. repeat split. Qed.
Lemma harmless_example : all_harmless (with_unsolicited (broadcast 0 ;; touch (LUser 3))).
Proof. cbn. repeat split. Qed.
Lemma busy_example : exists prog ts s, program (two RUser RPoll) quiet prog /\ run ts (begin prog) = Some s /\ owner s LGil = Some 0 /\ owner s (LManager 0) = Some 1 /\ todo s 0 <> [] /\ step 0 s = None.
Proof.
  exists (progs 60 (two RUser RPoll) quiet [1; 1; 0; 1;  1; 0; 0; 1; 0; 0; 0] [1; 0;  0;  1; 3; 1; 1; 0; 0; 0; 0; 0; 0; 0; 0]), [0; 1; 1; 1]. eexists. split; [apply progs_program|].
  split; [vm_compute; reflexivity|]. split; [reflexivity|]. split; [reflexivity|]. split; [discriminate|reflexivity].
Qed.
