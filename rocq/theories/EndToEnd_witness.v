(** Histories of the whole system: two processes traced, and two events of one thread which are shown in the wrong order. *)
From Coq Require Import String List Arith NArith ZArith Ascii Bool Lia Floats.SpecFloat Sorting.Sorted.
Import ListNotations.
From Verif Require Import Protocol_model OMap_model TraceEvent_model Names_model Native_model Native_spec Cbor_model Cbor_spec EndToEnd_model EndToEnd_spec EndToEnd_proofs.
Local Notation length := List.length.

Definition pidx (p : nat) : Z := match p with 0 => 100 | _ => 200 end.
(** An odd content enters scope 5, an even one leaves it; 1 and 2 are 50 ns apart, the others 10 us and more. *)
Definition whatx (p x : nat) : tev :=
  {| te_time := (1500000000000000000 + match x with 1%nat => 50 | 2%nat => 100 | 3%nat => 10000 | 4%nat => 20000 | 5%nat => 30000 | _ => 40000 end)%N;
     te_id := 5; te_type := if Nat.even x then SCOPE_EXIT else SCOPE_ENTRY; te_value := None |}.
Definition pass (p : nat) (ks : list nat) : list elabel := [Col p C.SSwap; Col p C.SSnapshot] ++ map (fun k => Col p (C.SCollect k)) ks ++ [Col p C.SSend].
Definition joined (p : nat) : list elabel := [Net p (U.Connect 0); Net p (U.Accept 0); Net p (U.AddClientEp 0 receiver)].
Definition sent_on (p : nat) : list elabel := [Net p U.DispBcast; Net p (U.CliRecv 0 None)].
Definition given_to (r : nat) : list elabel := [Prv (P.LLook r); Prv (P.LAdd r 0)].

(** Two broadcasts waiting are sent the last one first. *)
Definition early : list elabel := joined 0 ++ [Prv P.LMake; Prv (P.LStore 0 true); Col 0 (C.TStart 7)].
Definition reversing : list elabel :=
  [Col 0 (C.TEmit 0 1)] ++ pass 0 [1] ++ [Col 0 (C.TEmit 0 2)] ++ pass 0 [1] ++
  [Net 0 U.DispBcast; Net 0 U.DispBcast; Net 0 (U.CliRecv 0 None); Net 0 (U.CliRecv 0 None)] ++ given_to 0 ++ given_to 1.

(** Two processes; one event is in a buffer when the interval begins. *)
Definition before : list elabel :=
  joined 0 ++ joined 1 ++ [Col 0 (C.TStart 7); Col 1 (C.TStart 9); Col 0 (C.TEmit 0 1); Prv P.LMake; Prv (P.LStore 0 true)].
Definition during : list elabel :=
  [Col 0 (C.TEmit 0 3); Col 1 (C.TEmit 0 3); Col 0 (C.TStart 8)] ++ pass 0 [1; 0] ++ [Col 0 (C.TEmit 0 4); Col 0 (C.TEmit 1 5)] ++ pass 0 [2; 1] ++ pass 1 [1] ++
  sent_on 0 ++ sent_on 0 ++ sent_on 1 ++ given_to 0 ++ given_to 1 ++ given_to 2.

Definition at_ (ls : list elabel) : esys := match erun pidx whatx 2 ls e0 with Some s => s | None => e0 end.

Lemma contents_x : contents_ok whatx.
Proof.
  intros p x. split.
  - unfold proper, whatx. cbn [te_type te_value]. destruct (Nat.even x); (split; [vm_compute; split; discriminate|discriminate]).
  - constructor; unfold whatx; cbn [te_time te_id te_type te_value]; try discriminate.
    + do 6 (destruct x as [|x]; [vm_compute; reflexivity|]). vm_compute; reflexivity.
    + vm_compute; reflexivity.
    + destruct (Nat.even x); vm_compute; reflexivity.
Qed.
Lemma pids_x p : process_number (pidx p).
Proof. destruct p; vm_compute; split; reflexivity. Qed.
Definition small_ids (ls : list elabel) : bool := forallb (fun l => match l with Col _ (C.TStart tid) => (N.of_nat tid <? 2 ^ 64)%N | _ => true end) ls.
Lemma small_ids_ok ls : small_ids ls = true -> ids_ok ls.
Proof. unfold small_ids. rewrite forallb_forall. intros H p tid Hin. specialize (H _ Hin). cbn in H. apply N.ltb_lt in H. exact H. Qed.
Lemma filter_le {A} (f : A -> bool) l : length (filter f l) <= length l.
Proof. induction l as [|x l IH]; cbn; [lia|]. destruct (f x); cbn; lia. Qed.
Lemma sensible_x ls : small_ids ls = true -> (N.of_nat (length ls) <? 2 ^ 64)%N = true -> sensible pidx whatx ls.
Proof.
  intros H L. split; [exact pids_x|]. split; [exact contents_x|]. split; [now apply small_ids_ok|]. apply N.ltb_lt in L. eapply N.le_lt_trans; [|exact L]. pose proof (filter_le adds ls). lia.
Qed.

Fixpoint roomyb (cap : nat) (ls : list C.clabel) (s : C.cstate) : bool :=
  match ls with
  | [] => true
  | l :: ls' => match l with C.TEmit i _ => match nth_error (C.cs_threads s) i with Some t => length (C.th_buf t) <? cap | None => true end | _ => true end
                && match C.cstep cap l s with Some s' => roomyb cap ls' s' | None => true end
  end.
Lemma roomyb_ok cap : forall ls s, roomyb cap ls s = true -> roomy cap ls s.
Proof.
  induction ls as [|l ls IH]; intros s H; [exact Logic.I|]. cbn [roomyb] in H. apply andb_prop in H. destruct H as (H1 & H2). split.
  - destruct l; try exact Logic.I. intros t Ht. rewrite Ht in H1. apply Nat.ltb_lt in H1. exact H1.
  - destruct (C.cstep cap l s); [auto|exact Logic.I].
Qed.

(** Checks. *)
Definition none {A} (l : list A) : bool := match l with [] => true | _ => false end.
Lemma none_ok {A} (l : list A) : none l = true -> l = []. Proof. destruct l; [reflexivity|discriminate]. Qed.
Definition settledb (s : esys) : bool := forallb (fun c => none (P.c_look c) && none (P.c_todo c)) (P.p_inc (e_prov s)).
Lemma settledb_ok s : settledb s = true -> settled s.
Proof.
  unfold settledb. rewrite forallb_forall. intros H c Hc. specialize (H c Hc). apply andb_prop in H. destruct H as (H1 & H2). split; apply none_ok; assumption.
Qed.
Definition drainedb (p : nat) (s : esys) : bool :=
  forallb (fun t => none (C.th_buf t)) (C.cs_threads (e_col s p)) && none (Collector_spec.in_hand (e_col s p)) && none (U.s_queue (e_net s p)) && none (U.c_in (U.s_cl (e_net s p) 0)).
Lemma drainedb_ok p s : drainedb p s = true -> drained p s.
Proof.
  unfold drainedb. intros H. apply andb_prop in H. destruct H as (H & H4). apply andb_prop in H. destruct H as (H & H3). apply andb_prop in H. destruct H as (H1 & H2).
  apply none_ok in H2. apply none_ok in H3. apply none_ok in H4. rewrite forallb_forall in H1. split; [|split; [exact H2|split]].
  - intros i t Ht. apply nth_error_In, H1, none_ok in Ht. exact Ht.
  - rewrite H3. intros n d [].
  - rewrite H4. intros m g [].
Qed.
Definition undisturbedb (i : nat) (ls : list elabel) : bool :=
  forallb (fun l => match l with Prv (P.LStore j _) | Prv (P.LClear j) => negb (j =? i) | _ => true end) ls.
Lemma undisturbedb_ok i ls : undisturbedb i ls = true -> undisturbed i ls.
Proof.
  unfold undisturbedb. rewrite forallb_forall. intros H. split; [intros b|]; intros Hin; apply H in Hin; cbn in Hin; rewrite Nat.eqb_refl in Hin; discriminate.
Qed.
Definition connectedb (p : nat) (s : esys) : bool := U.is_accepted (U.s_conn (e_net s p) 0) && U.c_open (U.s_cl (e_net s p) 0) && U.mem receiver (U.c_eps (U.s_cl (e_net s p) 0)).
Lemma connectedb_ok p s : connectedb p s = true -> connected p s.
Proof.
  unfold connectedb, connected. intros H. apply andb_prop in H. destruct H as (H & H3). apply andb_prop in H. destruct H as (H1 & H2).
  destruct (U.s_conn (e_net s p) 0); try discriminate. auto.
Qed.

(** The two events of the thread are shown in the wrong order. *)
Definition times_up (l : list C.event) : Prop := StronglySorted (fun a b => (te_time (whatx 0 (snd a)) < te_time (whatx 0 (snd b)))%N) l.
Lemma reversed_lemma : exists s1 s2 a b, erun pidx whatx 2 early e0 = Some s1 /\ erun pidx whatx 2 reversing s1 = Some s2 /\ sensible pidx whatx (early ++ reversing) /\
  recording 0 s1 /\ undisturbed 0 reversing /\ settled s2 /\ connected 0 s1 /\ connected 0 s2 /\ drained 0 s2 /\ roomy 2 (steps_of 0 reversing) (e_col s1 0) /\
  traced 0 0 (early ++ reversing) = [(0, 1); (0, 2)] /\ times_up [(0, 1); (0, 2)] /\
  interval [] 0 s2 = FEntries [a; b] /\ shown pidx whatx [] s2 (0, (0, 2)) a /\ shown pidx whatx [] s2 (0, (0, 1)) b /\ ~ shown pidx whatx [] s2 (0, (0, 1)) a.
Proof.
  exists (at_ early), (at_ (early ++ reversing)). eexists. eexists.
  split; [vm_compute; reflexivity|]. split; [vm_compute; reflexivity|]. split; [apply sensible_x; vm_compute; reflexivity|].
  split; [vm_compute; reflexivity|]. split; [apply undisturbedb_ok; vm_compute; reflexivity|].
  split; [apply settledb_ok; vm_compute; reflexivity|].
  split; [apply connectedb_ok; vm_compute; reflexivity|]. split; [apply connectedb_ok; vm_compute; reflexivity|].
  split; [apply drainedb_ok; vm_compute; reflexivity|].
  split; [apply roomyb_ok; vm_compute; reflexivity|]. split; [vm_compute; reflexivity|]. split; [repeat (constructor; [|repeat (constructor; [vm_compute; reflexivity|]); constructor]); constructor|].
  split; [vm_compute; reflexivity|].
  split; [|split].
  - eexists. split; [eexists; split; [vm_compute; reflexivity|reflexivity]|]. constructor; try reflexivity; try (vm_compute; reflexivity); [apply ph_end|split; [intros X; exfalso; apply X; reflexivity|discriminate]].
  - eexists. split; [eexists; split; [vm_compute; reflexivity|reflexivity]|]. constructor; try reflexivity; try (vm_compute; reflexivity); [apply ph_begin|split; [intros X; exfalso; apply X; reflexivity|discriminate]].
  - intros (r & (t & _ & ->) & Sh). pose proof (sh_phase _ _ _ Sh) as Ph. cbn [r_ev snd fst en_ph en_s] in Ph. inversion Ph.
Qed.

(** A case of [complete]: everything holds, and there is something to show. *)
Lemma complete_example : exists s1 s2, erun pidx whatx 2 before e0 = Some s1 /\ erun pidx whatx 2 during s1 = Some s2 /\ sensible pidx whatx (before ++ during) /\
  recording 0 s1 /\ undisturbed 0 during /\ settled s2 /\
  (forall p, (p <? 2) = true -> connected p s1 /\ connected p s2 /\ drained p s2 /\ roomy 2 (steps_of p during) (e_col s1 p)) /\
  traced 0 0 before = [(0, 1)] /\ traced 0 0 during = [(0, 3); (0, 4)] /\ traced 0 1 during = [(1, 5)] /\ traced 1 0 during = [(0, 3)] /\
  increasing whatx 0 (traced 0 0 (before ++ during)) /\ exists a b c d e, interval [] 0 s2 = FEntries [a; b; c; d; e].
Proof.
  exists (at_ before), (at_ (before ++ during)).
  split; [vm_compute; reflexivity|]. split; [vm_compute; reflexivity|]. split; [apply sensible_x; vm_compute; reflexivity|].
  split; [vm_compute; reflexivity|]. split; [apply undisturbedb_ok; vm_compute; reflexivity|].
  split; [apply settledb_ok; vm_compute; reflexivity|].
  split.
  { intros p Hp. apply Nat.ltb_lt in Hp. assert (D : p = 0 \/ p = 1) by lia. clear Hp.
    destruct D as [->| ->]; (split; [apply connectedb_ok; vm_compute; reflexivity|]; split; [apply connectedb_ok; vm_compute; reflexivity|];
      split; [apply drainedb_ok; vm_compute; reflexivity|apply roomyb_ok; vm_compute; reflexivity]). }
  do 4 (split; [vm_compute; reflexivity|]). split; [|do 5 eexists; vm_compute; reflexivity].
  assert (E : traced 0 0 (before ++ during) = [(0, 1); (0, 3); (0, 4)]) by (vm_compute; reflexivity). rewrite E.
  repeat (constructor; [|repeat (constructor; [vm_compute; reflexivity|]); constructor]). constructor.
Qed.
