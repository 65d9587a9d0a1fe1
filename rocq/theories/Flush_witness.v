(** Histories for C107: a recording with an event in the buffer and the sender in the middle of a pass; a sender that ends before it has collected; a process that dies with a broadcast queued. *)
From Coq Require Import String List Arith NArith ZArith Bool Lia Floats.SpecFloat Sorting.Sorted Sorting.Permutation.
Import ListNotations.
From Verif Require Import Protocol_model Json_model Json_spec TraceEvent_model Names_model Collector_spec Native_model Cbor_spec Record_model Record_spec.
From Verif Require Import EndToEnd_model EndToEnd_spec EndToEnd_proofs EndToEnd_witness File_spec File_witness.
From Verif Require Import Whole_model Whole_spec WholeFile_proofs WholeUse_proofs Whole_witness Flush_spec Flush_proofs.
Local Notation length := List.length.

Lemma reaches size ls (f : xsys -> bool) : result size ls f false = true -> exists s, xrun size pidx whaty ls x0 = Some s /\ f s = true.
Proof. unfold result. destruct (xrun size pidx whaty ls x0) as [s|]; [|discriminate]. eauto. Qed.
Lemma reaches_value {A} size ls s (f : xsys -> A) d : xrun size pidx whaty ls x0 = Some s -> f s = result size ls f d.
Proof. unfold result. now intros ->. Qed.
Definition stoppedb (p : nat) (s : xsys) : bool := match R.rs_pc (w_rings (x_proc s p)) with R.RStopped => true | _ => false end.
Definition ableb (p : nat) (s : xsys) : bool := U.s_up (x_net s p) && negb (stoppedb p s) && reachedb p s.
Lemma ableb_ok p s : ableb p s = true -> able p s.
Proof.
  unfold ableb, able, stoppedb. intros H. apply andb_prop in H as (H & H3). apply andb_prop in H as (H1 & H2). split; [exact H1|]. split; [|now apply reachedb_ok].
  intros E. rewrite E in H2. discriminate H2.
Qed.

(** ** An event before the recording, one during it; the sender has begun to collect. *)
Definition half1 : list xlabel := on1.
Definition half2 : list xlabel := passes_by 0 0 2 ++ puts 0 0 0 ++ map (fun l => XProc 0 (WSender l)) [R.RSwap; R.RSnapshot; R.RCall].
Definition missing (s : xsys) : bool :=
  match nth_error (R.rs_threads (w_rings (x_proc s 0))) 0 with
  | Some t => if popped_dec (Rings_spec.sent_of 0 (w_rings (x_proc s 0))) (map Some (Rings_spec.accepted_of t)) then false else true
  | None => false
  end.
Example half_way : exists s1 s2, possible pidx whaty (half1 ++ half2) /\ xrun 3 pidx whaty half1 x0 = Some s1 /\ xrun 3 pidx whaty half2 s1 = Some s2 /\ records 0 s1 /\ left_alone 0 half2 /\
  (forall p, In p [0] -> reached p s1 /\ able p s2) /\ ~ arrived 0 s2 /\ SS.events (switches s1 0) 0 = [1] /\ SS.events (switches s2 0) 0 = [1; 2] /\
  exists ls3 s3 os old, xrun 3 pidx whaty ls3 s2 = Some s3 /\ Forall background ls3 /\ file_shows fwy fry pidx whaty namesy 0 s3 [namey] [] os /\ of_thread 0 0 os = old ++ [2].
Proof.
  assert (Po : possible pidx whaty (half1 ++ half2)) by (apply smallb_ok; vm_compute; reflexivity). assert (La : left_alone 0 half2) by (apply aloneb_ok; vm_compute; reflexivity).
  destruct (reaches 3 half1 (fun s => P.rec_of 0 (x_prov s) && reachedb 0 s)) as (s1 & H1 & B1); [vm_compute; reflexivity|]. apply andb_prop in B1 as (B1 & B1').
  destruct (reaches 3 (half1 ++ half2) (fun s => ableb 0 s && missing s)) as (s2 & H2 & B2); [vm_compute; reflexivity|]. apply andb_prop in B2 as (B2 & B2').
  pose proof H2 as H12. rewrite WholeSim_proofs.xrun_app, H1 in H2.
  assert (E1 : SS.events (switches s1 0) 0 = [1]) by (rewrite (reaches_value 3 half1 s1 (fun s => SS.events (switches s 0) 0) [] H1); vm_compute; reflexivity).
  assert (E2 : SS.events (switches s2 0) 0 = [1; 2]) by (rewrite (reaches_value 3 _ s2 (fun s => SS.events (switches s 0) 0) [] H12); vm_compute; reflexivity).
  assert (Ab : forall p, In p [0] -> reached p s1 /\ able p s2) by (intros p [<-|[]]; split; [now apply reachedb_ok|now apply ableb_ok]).
  exists s1, s2. split; [exact Po|]. split; [exact H1|]. split; [exact H2|]. split; [exact B1|]. split; [exact La|]. split; [exact Ab|]. split.
  { intros (A & _). unfold missing in B2'. destruct (nth_error _ 0) as [t|] eqn:Ht; [|discriminate B2']. destruct (popped_dec _ _) as [|Ne]; [discriminate B2'|]. exact (Ne (A _ _ Ht)). }
  split; [exact E1|]. split; [exact E2|].
  destruct (completes 3 pidx whaty fwy fry 0 [0] half1 s1 half2 s2 namesy [namey] [] Po H1 H2 B1 La Ab times_y names_y (Forall_cons _ namey_wf (Forall_nil _)) (Forall_nil _)) as (ls3 & s3 & os & H3 & F & Fi & O).
  destruct (O 0 0 (or_introl eq_refl)) as (old & new & _ & E & _ & Eq). exists ls3, s3, os, old. split; [exact H3|]. split; [exact F|]. split; [exact Fi|].
  rewrite E1, E2 in E. injection E as <-. apply Eq. rewrite E2. repeat constructor; vm_compute; reflexivity.
Qed.

(** ** The sender ends with an event in the buffer. *)
Definition ends1 : list xlabel := begins ++ passes_by 0 0 1 ++ puts 0 0 0 ++ [XProc 0 (WSender R.RStop)].
Lemma ended : exists s, xrun 3 pidx whaty ends1 x0 = Some s /\ records 0 s /\ reached 0 s /\ U.s_up (x_net s 0) = true /\ SS.events (switches s 0) 0 = [1] /\
  forall ls2 s2, xrun 3 pidx whaty ls2 s = Some s2 -> ~ arrived 0 s2.
Proof.
  destruct (reaches 3 ends1 (fun s => P.rec_of 0 (x_prov s) && reachedb 0 s && U.s_up (x_net s 0) && stoppedb 0 s && missing s)) as (s & H & B); [vm_compute; reflexivity|].
  apply andb_prop in B as (B & B5). apply andb_prop in B as (B & B4). apply andb_prop in B as (B & B3). apply andb_prop in B as (B1 & B2).
  exists s. split; [exact H|]. split; [exact B1|]. split; [now apply reachedb_ok|]. split; [exact B3|].
  split; [rewrite (reaches_value 3 ends1 s (fun s => SS.events (switches s 0) 0) [] H); vm_compute; reflexivity|].
  intros ls2 s2 H2. unfold missing in B5. destruct (nth_error _ 0) as [t|] eqn:Ht; [|discriminate B5]. destruct (popped_dec _ _) as [|Ne]; [discriminate B5|].
  eapply sender_ended; [exact H| |exact Ht|exact Ne|exact H2]. unfold stoppedb in B4. destruct (R.rs_pc _); try discriminate B4. reflexivity.
Qed.

(** ** The process dies with a broadcast queued. *)
Definition dies1 : list xlabel := begins ++ passes_by 0 0 1 ++ puts 0 0 0 ++ collects 0 1 1 1 ++ [XNet 0 U.SrvCrash].
Lemma died : exists s, xrun 3 pidx whaty dies1 x0 = Some s /\ records 0 s /\ reached 0 s /\ R.rs_pc (w_rings (x_proc s 0)) <> R.RStopped /\ SS.events (switches s 0) 0 = [1] /\
  forall ls2 s2, xrun 3 pidx whaty ls2 s = Some s2 -> ~ arrived 0 s2.
Proof.
  destruct (reaches 3 dies1 (fun s => P.rec_of 0 (x_prov s) && reachedb 0 s && negb (U.s_up (x_net s 0)) && negb (stoppedb 0 s) &&
    match U.s_queue (x_net s 0) with (x, _) :: _ => U.bytes_eqb x receiver | [] => false end)) as (s & H & B); [vm_compute; reflexivity|].
  apply andb_prop in B as (B & B5). apply andb_prop in B as (B & B4). apply andb_prop in B as (B & B3). apply andb_prop in B as (B1 & B2).
  exists s. split; [exact H|]. split; [exact B1|]. split; [now apply reachedb_ok|].
  split; [intros E; unfold stoppedb in B4; rewrite E in B4; discriminate B4|].
  split; [rewrite (reaches_value 3 dies1 s (fun s => SS.events (switches s 0) 0) [] H); vm_compute; reflexivity|].
  intros ls2 s2 H2. destruct (U.s_queue (x_net s 0)) as [|[x d] r] eqn:Q; [discriminate B5|]. apply UnixSystem_proofs.bytes_eqb_eq in B5. subst x.
  apply negb_true_iff in B3. apply (server_gone 3 pidx whaty 0 d ls2 s s2 B3); [rewrite Q; left; reflexivity|exact H2].
Qed.
