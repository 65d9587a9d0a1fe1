(** Histories for C104: a thread that traces while a recording is made; an event that comes after the answer "off"; one that finds no room in an empty buffer. *)
From Coq Require Import String List Arith NArith ZArith Ascii Bool Lia Floats.SpecFloat Sorting.Sorted Sorting.Permutation.
Import ListNotations.
From Verif Require Import Protocol_model Json_model Json_spec TraceEvent_model Names_model Collector_spec Native_model Cbor_spec Record_model Record_spec.
From Verif Require Import EndToEnd_model EndToEnd_spec EndToEnd_proofs EndToEnd_witness File_spec File_witness.
From Verif Require Import Whole_model Whole_spec WholeFile_proofs WholeUse_proofs.
From Verif Require Switch_proofs.
Local Notation length := List.length.

(** ** Pieces of histories *)
Definition meets (p : nat) : list xlabel := [XNet p (U.Connect 0); XNet p (U.Accept 0); XNet p (U.AddClientEp 0 receiver)].
Definition comes (p : nat) : list xlabel := [XNet p U.DispBcast; XNet p (U.CliRecv 0 None)].
Definition goes (r : nat) : list xlabel := [XPrv (P.LLook r); XPrv (P.LAdd r 0)].
Definition switch (p : nat) (ls : list S.label) : list xlabel := map (fun l => XProc p (WSwitch l)) ls.
(** Thread [i] comes to a tracepoint, and passes the flags. *)
Definition passes_by (p i e : nat) : list xlabel := XProc p (WEnter i e) :: switch p [S.LoadP i; S.LoadT i].
(** It calls [push], whose load returns index number [c], and which finds room. *)
Definition puts (p i c : nat) : list xlabel := [XProc p (WPush i); XProc p (WAccess i c); XProc p (WAccess i 0); XProc p (WReturn i 0 true)].
(** A pass of the sender over one buffer. *)
Definition collects (p a b k : nat) : list xlabel :=
  map (fun l => XProc p (WSender l)) ([R.RSwap; R.RSnapshot; R.RCall; R.RRead a; R.RCall; R.RRead b] ++ repeat (R.RRead 0) (S k) ++ [R.RSend]).
(** A request that switches the process, and that finds [k] threads. *)
Definition asks (b : bool) (k : nat) : list S.label := Switch_spec.handling 1 (S.Change true b []) (repeat (S.Step 1) (2 + k)).
Definition begins : list xlabel := meets 0 ++ [XPrv P.LMake; XPrv (P.LStore 0 true); XProc 0 (WStart 7); XProc 0 (WBuffer 0)].

(** ** Checks *)
Definition result {A} (size : nat) (ls : list xlabel) (f : xsys -> A) (d : A) : A := match xrun size pidx whaty ls x0 with Some s => f s | None => d end.
Definition returnedb (s : xsys) : bool := forallb (fun c => none (P.c_look c) && none (P.c_todo c)) (P.p_inc (x_prov s)).
Lemma returnedb_ok s : returnedb s = true -> all_returned s.
Proof. unfold returnedb. rewrite forallb_forall. intros H c Hc. specialize (H c Hc). apply andb_prop in H. destruct H as (H1 & H2). split; apply none_ok; assumption. Qed.
Definition reachedb (p : nat) (s : xsys) : bool := U.is_accepted (U.s_conn (x_net s p) 0) && U.c_open (U.s_cl (x_net s p) 0) && U.mem receiver (U.c_eps (U.s_cl (x_net s p) 0)).
Lemma reachedb_ok p s : reachedb p s = true -> reached p s.
Proof.
  unfold reachedb, reached. intros H. apply andb_prop in H. destruct H as (H & H3). apply andb_prop in H. destruct H as (H1 & H2).
  destruct (U.s_conn (x_net s p) 0); try discriminate. auto.
Qed.
Definition popped_dec (a b : list (option C.event)) : {a = b} + {a <> b}.
Proof. repeat decide equality. Defined.
Definition arrivedb (p : nat) (s : xsys) : bool :=
  let ts := R.rs_threads (w_rings (x_proc s p)) in
  forallb (fun j => match nth_error ts j with
                    | Some t => if popped_dec (Rings_spec.sent_of j (w_rings (x_proc s p))) (map Some (Rings_spec.accepted_of t)) then true else false
                    | None => true
                    end) (seq 0 (length ts)) && none (U.s_queue (x_net s p)) && none (U.c_in (U.s_cl (x_net s p) 0)).
Lemma arrivedb_ok p s : arrivedb p s = true -> arrived p s.
Proof.
  unfold arrivedb. intros H. apply andb_prop in H. destruct H as (H & H3). apply andb_prop in H. destruct H as (H1 & H2). apply none_ok in H2. apply none_ok in H3.
  rewrite forallb_forall in H1. split; [|split].
  - intros j t Ht. assert (L : In j (seq 0 (length (R.rs_threads (w_rings (x_proc s p)))))). { apply in_seq. split; [lia|]. apply nth_error_Some. congruence. }
    apply H1 in L. rewrite Ht in L. destruct (popped_dec _ _) as [E|]; [exact E|discriminate L].
  - rewrite H2. intros n d [].
  - rewrite H3. intros m g [].
Qed.
Definition aloneb (k : nat) (ls : list xlabel) : bool := forallb (fun l => match l with XPrv (P.LStore j _) | XPrv (P.LClear j) => negb (j =? k) | _ => true end) ls.
Lemma aloneb_ok k ls : aloneb k ls = true -> left_alone k ls.
Proof. unfold aloneb. rewrite forallb_forall. intros H. split; [intros b|]; intros Hin; apply H in Hin; cbn in Hin; rewrite Nat.eqb_refl in Hin; discriminate. Qed.
Definition smallb (ls : list xlabel) : bool := forallb (fun l => match l with XProc _ (WStart tid) => (N.of_nat tid <? 2 ^ 64)%N | _ => true end) ls && (N.of_nat (length ls) <? 2 ^ 64)%N.
Lemma smallb_ok ls : smallb ls = true -> possible pidx whaty ls.
Proof.
  unfold smallb. intros H. apply andb_prop in H. destruct H as (H1 & H2). rewrite forallb_forall in H1. split; [exact pids_x|]. split; [exact contents_y|].
  split; [|apply N.ltb_lt in H2; eapply N.le_lt_trans; [|exact H2]; pose proof (filter_le by_process ls); lia]. intros p tid Hin. specialize (H1 _ Hin). cbn in H1. apply N.ltb_lt in H1. exact H1.
Qed.
(** The two halves of a history make a recording; what is asked of the two states can be computed. *)
Lemma setting size ls1 ls2 : smallb (ls1 ++ ls2) && aloneb 0 ls2 && result size ls1 (fun s => P.rec_of 0 (x_prov s) && reachedb 0 s) false &&
    result size (ls1 ++ ls2) (fun s => returnedb s && reachedb 0 s && arrivedb 0 s) false = true ->
  exists s1 s2, recording size pidx whaty 0 (fun p => p =? 0) ls1 s1 ls2 s2 /\
    (forall A (f : xsys -> A) d, f s1 = result size ls1 f d) /\ (forall A (f : xsys -> A) d, f s2 = result size (ls1 ++ ls2) f d).
Proof.
  intros H. apply andb_prop in H as (H & H4). apply andb_prop in H as (H & H3). apply andb_prop in H as (H1 & H2). unfold result in *. rewrite WholeSim_proofs.xrun_app in *.
  destruct (xrun size pidx whaty ls1 x0) as [s1|] eqn:E1; [|discriminate]. destruct (xrun size pidx whaty ls2 s1) as [s2|] eqn:E2; [|discriminate].
  apply andb_prop in H3 as (H3 & H3'). apply andb_prop in H4 as (H4 & H4''). apply andb_prop in H4 as (H4 & H4'). exists s1, s2. split; [|split; reflexivity].
  constructor; auto using smallb_ok, aloneb_ok, returnedb_ok. intros p Hp. apply Nat.eqb_eq in Hp. subst p. auto using reachedb_ok, arrivedb_ok.
Qed.

(** How many events a file shows can be computed too. *)
Definition shown (before after : list (json spec_float)) (s : xsys) : option nat :=
  match finished namesy 0 s with
  | FEntries res => match Session_model.collect_text fwy (before ++ map entry_json res ++ after) with
                    | Some t => match parse fry t with Some (JArr l) => Some (length l) | _ => None end
                    | None => None
                    end
  | _ => None
  end.
Lemma shown_ok before after s os k : file_shows fwy fry pidx whaty namesy 0 s before after os -> shown before after s = Some k -> length before + length os + length after = k.
Proof.
  intros (res & t & js & E1 & E2 & E3 & E4) H. unfold shown in H. rewrite E1, E2, E3 in H. injection H as <-. rewrite !app_length. assert (L : length os = length js) by (clear - E4; induction E4; cbn; congruence). lia.
Qed.
(** All of it is of the one thread there is. *)
Lemma one_thread before after s os : (forall p i, nth_error (S.s_threads (switches s p)) i <> None -> p = 0 /\ i = 0) ->
  file_shows fwy fry pidx whaty namesy 0 s before after os -> length (of_thread 0 0 os) = length os.
Proof.
  intros One (res & t & js & _ & _ & _ & F). unfold of_thread. rewrite map_length. clear - One F. induction F as [|o j os js (t & e & Ht & _) F IH]; [reflexivity|].
  destruct (One (f_process o) (f_thread o)) as (Q1 & Q2); [rewrite Ht; discriminate|]. cbn [filter]. rewrite Q1, Q2. cbn [Nat.eqb andb length]. now rewrite IH.
Qed.
Lemma one_only (P : nat -> list S.thread) : (forall p, length (P p) <= match p with 0 => 1 | _ => 0 end) -> forall p i, nth_error (P p) i <> None -> p = 0 /\ i = 0.
Proof. intros H p i N. apply nth_error_Some in N. specialize (H p). destruct p; lia. Qed.

(** ** On: an event is in the buffer when the recording begins; two tracepoints follow, the thread is in the second one at the end. *)
Definition on1 : list xlabel := begins ++ passes_by 0 0 1 ++ puts 0 0 0 ++ switch 0 (asks true 1).
Definition on2 : list xlabel := passes_by 0 0 2 ++ puts 0 0 0 ++ collects 0 2 2 2 ++ comes 0 ++ goes 0 ++ [XProc 0 (WEnter 0 4)].
Lemma answered_ask b h0 h2 ls1 ls2 u : history 0 ls1 = h0 ++ asks b 1 ++ h2 -> S.run h0 S.state0 = Some u -> SS.no_requests u -> Forall SS.quiet (h2 ++ history 0 ls2) ->
  answered 0 ls1 ls2 (S.Change true b []) u.
Proof.
  intros E R N Q. exists h0, 1, (repeat (S.Step 1) (2 + 1)), h2. split; [exact E|]. split; [exact R|]. split; [exact N|]. split.
  - cbn. intros [H|[H|[H|[]]]]; discriminate H.
  - repeat (constructor; [exact Logic.I|]). exact Q.
Qed.
Definition u_on : S.state := match S.run [S.Start 7; S.Enter 0 1; S.LoadP 0; S.LoadT 0; S.Push 0 true] S.state0 with Some u => u | None => S.state0 end.
Example on_example : exists s1 s2, recording 3 pidx whaty 0 (fun p => p =? 0) on1 s1 on2 s2 /\ answered 0 on1 on2 (S.Change true true []) u_on /\ SS.not_ended u_on 0 /\ found_room 0 0 on2 /\
  SS.place (switches s1 0) 0 = S.Idle /\ SS.place (switches s2 0) 0 = S.AtProcess 4 /\ SS.come_to 0 (history 0 on1) = [1] /\ SS.come_to 0 (history 0 on2) = [2; 4] /\
  rising whaty 0 (SS.come_to 0 (history 0 (on1 ++ on2))) /\
  exists os, file_shows fwy fry pidx whaty namesy 0 s2 [namey] [] os /\ of_thread 0 0 os = [1; 2].
Proof.
  destruct (setting 3 on1 on2) as (s1 & s2 & Re & F1 & F2); [vm_compute; reflexivity|]. exists s1, s2. split; [exact Re|].
  assert (An : answered 0 on1 on2 (S.Change true true []) u_on).
  { apply (answered_ask true [S.Start 7; S.Enter 0 1; S.LoadP 0; S.LoadT 0; S.Push 0 true] []); [reflexivity|vm_compute; reflexivity|intros h; reflexivity|repeat constructor]. }
  split; [exact An|]. split; [intros t Ht; vm_compute in Ht; injection Ht as <-; reflexivity|]. split; [repeat constructor|].
  split; [rewrite (F1 _ (fun s => SS.place (switches s 0) 0) (S.AtPush 9)); vm_compute; reflexivity|]. split; [rewrite (F2 _ (fun s => SS.place (switches s 0) 0) (S.AtPush 9)); vm_compute; reflexivity|].
  split; [reflexivity|]. split; [reflexivity|].
  assert (Ri : rising whaty 0 [1; 2; 4]) by (repeat constructor; vm_compute; reflexivity). split; [exact Ri|].
  destruct (whole_recorded 3 pidx whaty fwy fry 0 (fun p => p =? 0) on1 s1 on2 s2 namesy [namey] [] Re times_y names_y (Forall_cons _ namey_wf (Forall_nil _)) (Forall_nil _)) as (os & Fi & O).
  exists os. split; [exact Fi|]. destruct (O 0 0 eq_refl) as (old & new & So & E & Pe & Eq).
  rewrite (F1 _ (fun s => SS.events (switches s 0) 0) []), (F2 _ (fun s => SS.events (switches s 0) 0) []) in E. vm_compute in E. injection E as <-.
  assert (E2 : SS.events (switches s2 0) 0 = [1; 2]) by (rewrite (F2 _ (fun s => SS.events (switches s 0) 0) []); vm_compute; reflexivity).
  assert (X : of_thread 0 0 os = old ++ [2]) by (apply Eq; rewrite E2; repeat constructor; vm_compute; reflexivity).
  assert (L : length (of_thread 0 0 os) = 2).
  { rewrite (one_thread [namey] [] s2 os); [|apply one_only; intros p; rewrite (F2 _ (fun s => length (S.s_threads (switches s p))) 0); destruct p; vm_compute; lia|exact Fi].
    pose proof (shown_ok [namey] [] s2 os 3 Fi) as Y. rewrite (F2 _ (shown [namey] []) None) in Y. specialize (Y ltac:(vm_compute; reflexivity)). cbn in Y. lia. }
  rewrite X in L |- *. rewrite app_length in L. cbn in L. rewrite (F1 _ (fun s => SS.events (switches s 0) 0) []) in So. vm_compute in So.
  inversion So as [|x l l' So' Ex|x l l' So' Ex]; subst; [discriminate L| |]; inversion So'; subst; [reflexivity|discriminate L].
Qed.

(** ** Off: the thread has passed the flags when the request comes; it is answered that the process is off; then the event is put in the buffer. *)
Definition off1 : list xlabel := begins ++ passes_by 0 0 1 ++ switch 0 (asks false 1).
Definition off2 : list xlabel := puts 0 0 0 ++ collects 0 1 1 1 ++ comes 0 ++ goes 0.
Definition u_off : S.state := match S.run [S.Start 7; S.Enter 0 1; S.LoadP 0; S.LoadT 0] S.state0 with Some u => u | None => S.state0 end.
Lemma late : exists s1 s2, recording 3 pidx whaty 0 (fun p => p =? 0) off1 s1 off2 s2 /\ answered 0 off1 off2 (S.Change true false []) u_off /\
  S.s_log (switches s1 0) = [(1, S.Change true false [], (false, [(7, true)]))] /\ SS.events (switches s1 0) 0 = [] /\ SS.past_process (SS.place (switches s1 0) 0) = [1] /\
  exists os, file_shows fwy fry pidx whaty namesy 0 s2 [namey] [] os /\ of_thread 0 0 os = [1].
Proof.
  destruct (setting 3 off1 off2) as (s1 & s2 & Re & F1 & F2); [vm_compute; reflexivity|]. exists s1, s2. split; [exact Re|].
  split; [apply (answered_ask false [S.Start 7; S.Enter 0 1; S.LoadP 0; S.LoadT 0] []); [reflexivity|vm_compute; reflexivity|intros h; reflexivity|repeat constructor]|].
  split; [rewrite (F1 _ (fun s => S.s_log (switches s 0)) []); vm_compute; reflexivity|]. split; [rewrite (F1 _ (fun s => SS.events (switches s 0) 0) [9]); vm_compute; reflexivity|].
  split; [rewrite (F1 _ (fun s => SS.past_process (SS.place (switches s 0) 0)) []); vm_compute; reflexivity|].
  destruct (whole_recorded 3 pidx whaty fwy fry 0 (fun p => p =? 0) off1 s1 off2 s2 namesy [namey] [] Re times_y names_y (Forall_cons _ namey_wf (Forall_nil _)) (Forall_nil _)) as (os & Fi & O).
  exists os. split; [exact Fi|]. destruct (O 0 0 eq_refl) as (old & new & So & E & Pe & Eq).
  rewrite (F1 _ (fun s => SS.events (switches s 0) 0) []), (F2 _ (fun s => SS.events (switches s 0) 0) []) in E. rewrite (F1 _ (fun s => SS.events (switches s 0) 0) []) in So. vm_compute in E, So. subst new.
  inversion So; subst. cbn [app] in Pe. apply Permutation_sym, Permutation_length_1_inv in Pe. exact Pe.
Qed.

(** ** Room: the buffer has been emptied, and yet [push] finds it full; the event is in no file. *)
Definition full1 : list xlabel := begins.
Definition full2 : list xlabel :=
  passes_by 0 0 1 ++ puts 0 0 0 ++ collects 0 1 1 1 ++ comes 0 ++ goes 0 ++ passes_by 0 0 2 ++ [XProc 0 (WPush 0); XProc 0 (WReturn 0 0 false)].
Fixpoint always (P : S.state -> bool) (ls : list S.label) (s : S.state) : bool :=
  P s && match ls with [] => true | l :: r => match S.step l s with Some s' => always P r s' | None => true end end.
Lemma always_ok P ls : forall s, always P ls s = true -> SS.throughout (fun s => P s = true) ls s.
Proof. induction ls as [|l ls IH]; intros s E; cbn [always] in E; apply andb_prop in E; destruct E as [E1 E2]; split; auto. destruct (S.step l s); auto. Qed.
Lemma no_room : exists s1 s2, recording 2 pidx whaty 0 (fun p => p =? 0) full1 s1 full2 s2 /\
  SS.throughout (fun u => S.s_proc u = true /\ SS.thread_on u 0 = true) (history 0 full2) (switches s1 0) /\
  SS.come_to 0 (history 0 full2) = [1; 2] /\ SS.place (switches s2 0) 0 = S.Idle /\
  exists os, file_shows fwy fry pidx whaty namesy 0 s2 [namey] [] os /\ of_thread 0 0 os = [1].
Proof.
  destruct (setting 2 full1 full2) as (s1 & s2 & Re & F1 & F2); [vm_compute; reflexivity|]. exists s1, s2. split; [exact Re|].
  split.
  { eapply Switch_proofs.throughout_impl; [|apply (always_ok (fun u => S.s_proc u && SS.thread_on u 0))]; [intros u Hu; apply andb_prop in Hu; exact Hu|].
    rewrite (F1 _ (fun s => always (fun u => S.s_proc u && SS.thread_on u 0) (history 0 full2) (switches s 0)) false). vm_compute. reflexivity. }
  split; [reflexivity|]. split; [rewrite (F2 _ (fun s => SS.place (switches s 0) 0) (S.AtPush 9)); vm_compute; reflexivity|].
  destruct (whole_recorded 2 pidx whaty fwy fry 0 (fun p => p =? 0) full1 s1 full2 s2 namesy [namey] [] Re times_y names_y (Forall_cons _ namey_wf (Forall_nil _)) (Forall_nil _)) as (os & Fi & O).
  exists os. split; [exact Fi|]. destruct (O 0 0 eq_refl) as (old & new & So & E & Pe & Eq).
  rewrite (F1 _ (fun s => SS.events (switches s 0) 0) []), (F2 _ (fun s => SS.events (switches s 0) 0) []) in E. rewrite (F1 _ (fun s => SS.events (switches s 0) 0) []) in So. vm_compute in E, So. subst new.
  inversion So; subst. cbn [app] in Pe. apply Permutation_sym, Permutation_length_1_inv in Pe. exact Pe.
Qed.
