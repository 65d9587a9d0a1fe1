(** Proofs of C47. *)
From Coq Require Import List Arith NArith ZArith Ascii Bool Lia Floats.SpecFloat Sorting.Sorted Sorting.Permutation.
Import ListNotations.
From Verif Require Import Protocol_model OMap_model OMap_proofs TraceEvent_model Names_model Collector_spec Collector_proofs Native_model Native_spec Native_proofs Cbor_model Cbor_spec Cbor_proofs.
From Verif Require Import EndToEnd_model EndToEnd_spec EndToEnd_lists EndToEnd_parts.
From Verif Require UnixSystem_spec UnixSystem_proofs Provider_spec Provider_proofs.
Module US := UnixSystem_spec.
Module UP := UnixSystem_proofs.
Module PS := Provider_spec.
Module PP := Provider_proofs.
Local Notation length := List.length.
Local Opaque receiver.

Section Machine.
Variable pid : nat -> Z.
Variable what : nat -> nat -> tev.
Variable cap : nat.
Local Notation packet := (packet pid what).
Local Notation estep := (estep pid what cap).
Local Notation erun := (erun pid what cap).

Lemma erun_app a : forall b s, erun (a ++ b) s = match erun a s with Some s1 => erun b s1 | None => None end.
Proof. induction a as [|l a IH]; intros b s; cbn [app EndToEnd_model.erun]; [reflexivity|]. destruct (estep l s); auto. Qed.
Lemma steps_app p a b : steps_of p (a ++ b) = steps_of p a ++ steps_of p b.
Proof. apply flat_map_app. Qed.
Lemma traced_app p i a b : traced p i (a ++ b) = traced p i a ++ traced p i b.
Proof. unfold traced. now rewrite steps_app, emissions_app. Qed.

Definition posted (p : nat) (ms : list (list (nat * list C.event))) : list (bytes * bytes) := map (fun m => (receiver, packet p m)) ms.

Record einv (ls : list elabel) (s : esys) : Prop := {
  ei_col : forall p, C.crun cap (steps_of p ls) c_attached = Some (e_col s p);
  ei_net : forall p, US.reached Net.plain (e_net s p);
  ei_prov : P.lrun (e_hist s) P.prov0 = Some (e_prov s);
  ei_made : forall p, filter Net.is_ours (U.s_made (e_net s p)) = posted p (C.cs_sent (e_col s p));
  ei_begun : map (fun x => snd (snd x)) (e_from s) = PS.begun (e_hist s);
  ei_from : forall p, tagged p (e_from s) = heard (U.c_log (U.s_cl (e_net s p) 0)) }.

Lemma skipn_grown {A} (a b : list A) : skipn (length a) (a ++ b) = b.
Proof. rewrite skipn_app, skipn_all, Nat.sub_diag. reflexivity. Qed.
Lemma tagged_same {A} p (l : list A) : tagged p (map (pair p) l) = l.
Proof. induction l as [|x l IH]; [reflexivity|]. cbn [map]. rewrite tagged_cons, Nat.eqb_refl, IH. reflexivity. Qed.
Lemma tagged_diff {A} p q (l : list A) : q <> p -> tagged p (map (pair q) l) = [].
Proof. intros N. induction l as [|x l IH]; [reflexivity|]. cbn [map]. rewrite tagged_cons, IH. destruct (Nat.eqb_spec q p); congruence. Qed.
Lemma begun_begins (l : list (nat * bytes)) : PS.begun (map (fun x => P.LBegin (snd x)) l) = map snd l.
Proof. induction l as [|x l IH]; cbn; [reflexivity|]. now rewrite IH. Qed.

(** What one step does. *)
Lemma step_parts l s s' : (forall p, US.reached Net.plain (e_net s p)) -> estep l s = Some s' ->
  (forall p, C.crun cap (steps_of p [l]) (e_col s p) = Some (e_col s' p)) /\
  (forall p, exists nls, Forall Net.plain nls /\ U.run nls (e_net s p) = Some (e_net s' p)) /\
  (exists h, e_hist s' = e_hist s ++ h /\ P.lrun h (e_prov s) = Some (e_prov s') /\ (forall i, undisturbed i [l] -> (forall b, ~ In (P.LStore i b) h) /\ ~ In (P.LClear i) h)
     /\ exists f, e_from s' = e_from s ++ f /\ map (fun x => snd (snd x)) f = PS.begun h /\
        forall p, heard (U.c_log (U.s_cl (e_net s' p) 0)) = heard (U.c_log (U.s_cl (e_net s p) 0)) ++ tagged p f) /\
  (forall p, exists more, C.cs_sent (e_col s' p) = C.cs_sent (e_col s p) ++ more /\
     filter Net.is_ours (U.s_made (e_net s' p)) = filter Net.is_ours (U.s_made (e_net s p)) ++ posted p more).
Proof.
  intros HR E. destruct l as [p a|p a|a]; cbn [EndToEnd_model.estep] in E.
  - destruct (C.cstep cap a (e_col s p)) as [c|] eqn:Ec; [|discriminate]. destruct (sent_step _ _ _ _ Ec) as (new & Hn). rewrite Hn, skipn_grown in E.
    assert (Em : map (fun m => U.MakeBcast receiver (packet p m)) new = map (U.MakeBcast receiver) (map (packet p) new)) by now rewrite map_map.
    rewrite Em in E. destruct (Net.make_run receiver (map (packet p) new) (e_net s p)) as (n & Hr & Hm & Hcl). rewrite Hr in E. injection E as <-. cbn [e_col e_net e_prov e_hist e_from].
    split; [|split; [|split]].
    + intros q. unfold steps_of. cbn. unfold U.upd. rewrite (Nat.eqb_sym q p). destruct (Nat.eqb_spec p q) as [->|N]; cbn; [now rewrite Ec|reflexivity].
    + intros q. unfold U.upd. destruct (Nat.eqb_spec q p) as [->|N]; [|exists []; auto]. eexists. split; [|exact Hr].
      clear. induction new; cbn; constructor; cbn; auto.
    + exists []. rewrite app_nil_r. split; [reflexivity|]. split; [reflexivity|]. split; [intros i _; split; [intros b []|intros []]|]. exists []. rewrite app_nil_r. split; [reflexivity|].
      split; [reflexivity|]. intros q. rewrite app_nil_r. unfold U.upd. destruct (Nat.eqb_spec q p) as [->|N]; [now rewrite Hcl|reflexivity].
    + intros q. unfold U.upd. destruct (Nat.eqb_spec q p) as [->|N]; [|exists []; cbn; now rewrite !app_nil_r]. exists new. split; [exact Hn|].
      rewrite Hm, filter_app. f_equal. unfold posted. rewrite map_map. clear. induction new as [|m new IH]; [reflexivity|]. cbn [map filter].
      change (Net.is_ours (receiver, packet p m)) with (U.bytes_eqb receiver receiver). rewrite UP.bytes_eqb_refl, IH. reflexivity.
  - destruct (reserved a) eqn:Er; [discriminate|]. destruct (U.step a (e_net s p)) as [n|] eqn:En; [|discriminate].
    destruct (Net.log_grows Net.plain a (e_net s p) n 0 (HR p) En) as (new & Hn). rewrite Hn, skipn_grown in E.
    destruct (P.lrun _ (e_prov s)) as [q|] eqn:Eq; [|discriminate]. injection E as <-. cbn [e_col e_net e_prov e_hist e_from].
    split; [|split; [|split]].
    + intros r. reflexivity.
    + intros r. unfold U.upd. destruct (Nat.eqb_spec r p) as [->|N]; [|exists []; auto]. exists [a]. split; [|cbn; now rewrite En].
      constructor; [|constructor]. destruct a; try exact Logic.I. cbn [Net.plain reserved] in *. intros ->. rewrite UP.bytes_eqb_refl in Er. discriminate.
    + eexists. split; [reflexivity|]. split; [exact Eq|].
      split; [intros i _; split; [intros b|]; intros Hin; apply in_map_iff in Hin; destruct Hin as (x & Hx & _); discriminate|].
      eexists. split; [reflexivity|]. split; [rewrite begun_begins, map_map; reflexivity|].
      intros r. unfold U.upd. destruct (Nat.eqb_spec r p) as [->|N]; [now rewrite Hn, Net.heard_app, tagged_same|]. now rewrite tagged_diff, app_nil_r by auto.
    + intros r. exists []. cbn. rewrite !app_nil_r. split; [reflexivity|]. unfold U.upd. destruct (Nat.eqb_spec r p) as [->|N]; [|reflexivity].
      destruct a; try (rewrite (Net.made_only _ _ _ En) by discriminate; reflexivity). cbn in En. injection En as <-. cbn. rewrite filter_app. cbn. unfold Net.is_ours at 2. cbn. cbn in Er. rewrite Er, app_nil_r. reflexivity.
  - assert (Ea : exists q, P.lstep a (e_prov s) = Some q /\ s' = {| e_col := e_col s; e_net := e_net s; e_prov := q; e_hist := e_hist s ++ [a]; e_from := e_from s |} /\ PS.begun [a] = []).
    { destruct a; try discriminate; destruct (P.lstep _ (e_prov s)) as [q|] eqn:Eq; try discriminate; exists q; split; auto; split; try reflexivity; congruence. }
    destruct Ea as (q & Eq & -> & Eb). cbn [e_col e_net e_prov e_hist e_from].
    split; [|split; [|split]].
    + intros r. reflexivity.
    + intros r. exists []. auto.
    + exists [a]. split; [reflexivity|]. split; [cbn [P.lrun]; now rewrite Eq|]. split.
      * intros i (U1 & U2). split; [intros b|]; intros [->|[]]; [apply (U1 b)|apply U2]; left; reflexivity.
      * exists []. rewrite app_nil_r. split; [reflexivity|]. split; [now rewrite Eb|]. intros r. now rewrite app_nil_r.
    + intros r. exists []. cbn. now rewrite !app_nil_r.
Qed.

Lemma reached_run s nls s' : US.reached Net.plain s -> Forall Net.plain nls -> U.run nls s = Some s' -> US.reached Net.plain s'.
Proof. intros (l0 & F0 & R0) F R. exists (l0 ++ nls). split; [apply Forall_app; auto|]. rewrite UP.run_app, R0. exact R. Qed.

(** What a history does. *)
Lemma run_parts : forall ls s s', (forall p, US.reached Net.plain (e_net s p)) -> erun ls s = Some s' ->
  (forall p, C.crun cap (steps_of p ls) (e_col s p) = Some (e_col s' p)) /\
  (forall p, exists nls, Forall Net.plain nls /\ U.run nls (e_net s p) = Some (e_net s' p)) /\
  (exists h, e_hist s' = e_hist s ++ h /\ P.lrun h (e_prov s) = Some (e_prov s') /\ (forall i, undisturbed i ls -> (forall b, ~ In (P.LStore i b) h) /\ ~ In (P.LClear i) h)
     /\ exists f, e_from s' = e_from s ++ f /\ map (fun x => snd (snd x)) f = PS.begun h /\
        forall p, heard (U.c_log (U.s_cl (e_net s' p) 0)) = heard (U.c_log (U.s_cl (e_net s p) 0)) ++ tagged p f) /\
  (forall p, exists more, C.cs_sent (e_col s' p) = C.cs_sent (e_col s p) ++ more /\
     filter Net.is_ours (U.s_made (e_net s' p)) = filter Net.is_ours (U.s_made (e_net s p)) ++ posted p more).
Proof.
  induction ls as [|l ls IH]; intros s s' HR E; cbn [EndToEnd_model.erun] in E.
  - injection E as <-. split; [reflexivity|]. split; [intros p; exists []; auto|]. split.
    + exists []. rewrite app_nil_r. split; [reflexivity|]. split; [reflexivity|]. split; [intros i _; split; [intros b []|intros []]|].
      exists []. rewrite app_nil_r. split; [reflexivity|]. split; [reflexivity|]. intros p. now rewrite app_nil_r.
    + intros p. exists []. cbn. now rewrite !app_nil_r.
  - destruct (estep l s) as [s1|] eqn:E1; [|discriminate]. destruct (step_parts l s s1 HR E1) as (A1 & A2 & (h1 & A3 & A4 & A5 & f1 & A6 & A7 & A8) & A9).
    assert (HR1 : forall p, US.reached Net.plain (e_net s1 p)) by (intros p; destruct (A2 p) as (nls & F & R); eapply reached_run; eauto).
    destruct (IH s1 s' HR1 E) as (B1 & B2 & (h2 & B3 & B4 & B5 & f2 & B6 & B7 & B8) & B9).
    change (l :: ls) with ([l] ++ ls). split; [|split; [|split]].
    + intros p. rewrite steps_app, crun_app, A1. apply B1.
    + intros p. destruct (A2 p) as (n1 & F1 & R1). destruct (B2 p) as (n2 & F2 & R2). exists (n1 ++ n2). split; [apply Forall_app; auto|]. rewrite UP.run_app, R1. exact R2.
    + exists (h1 ++ h2). split; [now rewrite B3, A3, app_assoc|]. split; [now rewrite PP.lrun_app, A4|]. split.
      * intros i (U1 & U2). destruct (A5 i) as (V1 & V2); [split; [intros b Hin; apply (U1 b)|intros Hin; apply U2]; apply in_or_app; auto|].
        destruct (B5 i) as (W1 & W2); [split; [intros b Hin; apply (U1 b)|intros Hin; apply U2]; apply in_or_app; auto|].
        split; [intros b|]; intros Hin; apply in_app_or in Hin; destruct Hin; [eapply V1|eapply W1|apply V2|apply W2]; eauto.
      * exists (f1 ++ f2). split; [now rewrite B6, A6, app_assoc|]. split; [now rewrite map_app, A7, B7, PP.begun_app|].
        intros p. now rewrite B8, A8, tagged_app, app_assoc.
    + intros p. destruct (A9 p) as (m1 & S1 & T1). destruct (B9 p) as (m2 & S2 & T2). exists (m1 ++ m2). split; [now rewrite S2, S1, app_assoc|].
      rewrite T2, T1. unfold posted. now rewrite map_app, app_assoc.
Qed.

Lemma run_einv ls s : erun ls e0 = Some s -> einv ls s.
Proof.
  intros H. assert (H0 : forall p, US.reached Net.plain (e_net e0 p)) by (intros p; exists []; auto).
  destruct (run_parts ls e0 s H0 H) as (A1 & A2 & (h1 & A3 & A4 & A5 & f1 & A6 & A7 & A8) & A9). constructor.
  - exact A1.
  - intros p. destruct (A2 p) as (nls & F & R). eapply reached_run; eauto.
  - rewrite A3. exact A4.
  - intros p. destruct (A9 p) as (m1 & S1 & T1). rewrite T1, S1. reflexivity.
  - rewrite A6, A3. exact A7.
  - intros p. rewrite A6. cbn. symmetry. apply A8.
Qed.

(** * The messages which are in a source *)
(** The calls which gave it its data. *)
Lemma given ls s i : einv ls s -> exists T, Forall2 (fun r x => nth_error (e_from s) r = Some x) (PS.handed i [] (e_hist s)) T /\
  map (fun x => snd (snd x)) T = P.data_of i (e_prov s) /\ exists rest, Permutation (T ++ rest) (e_from s).
Proof.
  intros I. pose proof (PP.linv_run _ _ (ei_prov _ _ I)) as L. pose proof (PP.li_data _ _ L i) as F. rewrite <- (ei_begun _ _ I) in F.
  assert (G : exists T, Forall2 (fun r x => nth_error (e_from s) r = Some x) (PS.handed i [] (e_hist s)) T /\ map (fun x => snd (snd x)) T = P.data_of i (e_prov s)).
  { clear - F. induction F as [|r d rs ds H F (T & F1 & E1)]; [exists []; auto|]. rewrite nth_error_map in H. destruct (nth_error (e_from s) r) as [x|] eqn:E; [|discriminate].
    injection H as <-. exists (x :: T). split; [constructor; auto|]. cbn. now rewrite E1. }
  destruct G as (T & F1 & E1). exists T. split; [exact F1|]. split; [exact E1|]. eapply pick; [apply (PP.li_nodup _ _ L i)|exact F1].
Qed.

Lemma given_once ls s T rest p : einv ls s -> Permutation (T ++ rest) (e_from s) -> NoDup (map fst (tagged p T)) /\
  Forall2 (fun k x => nth_error (U.s_disp (e_net s p)) k = Some x) (map fst (tagged p T)) (map (fun x => (receiver, snd x)) (tagged p T)).
Proof.
  intros I PT. apply (tagged_perm p) in PT. rewrite tagged_app, (ei_from _ _ I p) in PT. split.
  - pose proof (Net.heard_once _ (ei_net _ _ I p)) as N. eapply Permutation_NoDup in N; [|apply Permutation_map, Permutation_sym; exact PT].
    rewrite map_app in N. eapply Net.subseq_NoDup; [apply subseq_prefix|exact N].
  - assert (G : forall x, In x (tagged p T) -> In x (heard (U.c_log (U.s_cl (e_net s p) 0)))) by (intros x Hx; eapply Permutation_in; [exact PT|apply in_or_app; auto]).
    clear PT. induction (tagged p T) as [|[k d] l IH]; cbn; constructor.
    + apply Net.heard_content; [apply I|]. apply G. left. reflexivity.
    + apply IH. intros x Hx. apply G. right. exact Hx.
Qed.

Lemma ours_given (l : list (nat * bytes)) : Forall (fun x => Net.is_ours x = true) (map (fun x => (receiver, snd x)) l).
Proof. induction l as [|x l IH]; constructor; [apply UP.bytes_eqb_refl|exact IH]. Qed.
Lemma filter_all {A} (f : A -> bool) l : Forall (fun x => f x = true) l -> filter f l = l.
Proof. induction 1 as [|x l H F IH]; cbn; [reflexivity|]. now rewrite H, IH. Qed.
Lemma posted_snd p ms : map snd (posted p ms) = map (packet p) ms.
Proof. unfold posted. now rewrite map_map. Qed.

(** Its data are messages the processes sent, each once at most. *)
Lemma messages_of ls s T rest p : einv ls s -> Permutation (T ++ rest) (e_from s) ->
  exists left, Permutation (map snd (tagged p T) ++ left) (map (packet p) (C.cs_sent (e_col s p))).
Proof.
  intros I PT. destruct (given_once _ _ _ _ p I PT) as (N & F). destruct (pick _ _ _ N F) as (r & Pr).
  pose proof (UP.bcast_conserved _ _ (ei_net _ _ I p)) as Pm. apply (filter_perm Net.is_ours) in Pr. apply (filter_perm Net.is_ours) in Pm.
  rewrite filter_app, (filter_all _ _ (ours_given _)) in Pr. rewrite filter_app, <- Pr, (ei_made _ _ I p) in Pm. apply (Permutation_map snd) in Pm.
  rewrite posted_snd, !map_app, map_map in Pm. cbn in Pm. rewrite <- app_assoc in Pm. eexists. symmetry. exact Pm.
Qed.

(** Which call it was. *)
Lemma begun_split {D} (a b : list (P.label D)) r d : nth_error (PS.begun (a ++ b)) r = Some d -> length (PS.begun a) <= r ->
  exists b1 b2, b = b1 ++ P.LBegin d :: b2 /\ length (PS.begun (a ++ b1)) = r.
Proof.
  revert a. induction b as [|l b IH]; intros a H L.
  - rewrite app_nil_r in H. apply UP.nth_error_lt in H. lia.
  - assert (K : PS.begun [l] = [] -> exists b1 b2, l :: b = b1 ++ P.LBegin d :: b2 /\ length (PS.begun (a ++ b1)) = r).
    { intros E. destruct (IH (a ++ [l])) as (b1 & b2 & -> & E1); [rewrite <- app_assoc; exact H|rewrite PP.begun_app, E, app_nil_r; exact L|].
      exists (l :: b1), b2. split; [reflexivity|]. rewrite <- app_assoc in E1. exact E1. }
    destruct l as [|i b0|i|d0|r0|r0 i]; try (apply K; reflexivity).
    destruct (Nat.eq_dec r (length (PS.begun a))) as [->|N].
    + rewrite PP.begun_app, nth_error_app2, Nat.sub_diag in H by lia. cbn in H. injection H as ->. exists [], b. split; [reflexivity|]. now rewrite app_nil_r.
    + destruct (IH (a ++ [P.LBegin d0])) as (b1 & b2 & -> & E1); [rewrite <- app_assoc; exact H|rewrite PP.begun_app, app_length; cbn; lia|].
      exists (P.LBegin d0 :: b1), b2. split; [reflexivity|]. rewrite <- app_assoc in E1. exact E1.
Qed.
Lemma on_none {D} i (h : list (P.label D)) : (forall b, ~ In (P.LStore i b) h) -> forall w, PS.on i w h = w.
Proof.
  induction h as [|l h IH]; intros N w; [reflexivity|]. assert (N' : forall b, ~ In (P.LStore i b) h) by (intros b Hb; apply (N b); right; exact Hb).
  destruct l as [|j b0|j|d0|r0|r0 j]; cbn; try (apply IH; exact N'). destruct (Nat.eqb_spec j i) as [->|Ne]; [exfalso; apply (N b0); left; reflexivity|apply IH; exact N'].
Qed.

(** Messages of a process to which the recording program is connected. *)
Lemma messages_new ls1 s1 ls2 s2 T rest i p : einv ls1 s1 -> einv (ls1 ++ ls2) s2 -> erun ls2 s1 = Some s2 ->
  Forall2 (fun r x => nth_error (e_from s2) r = Some x) (PS.handed i [] (e_hist s2)) T -> Permutation (T ++ rest) (e_from s2) ->
  recording i s1 -> undisturbed i ls2 -> settled s2 -> connected p s1 -> connected p s2 -> drained p s2 ->
  exists old left more, C.cs_sent (e_col s2 p) = C.cs_sent (e_col s1 p) ++ more /\
    Permutation (map snd (tagged p T)) (old ++ map (packet p) more) /\ Permutation (old ++ left) (map (packet p) (C.cs_sent (e_col s1 p))).
Proof.
  intros I1 I2 E FT PT Hrec Hund Hset (Ca & Co & Cm) (Da & Do & _) (_ & _ & Dq & Dw).
  destruct (run_parts ls2 s1 s2 (ei_net _ _ I1) E) as (_ & A2 & (h2 & A3 & A4 & A5 & f2 & A6 & A7 & A8) & A9).
  destruct (A2 p) as (nls & Fn & Rn). destruct (A9 p) as (more & S1 & T1). destruct (A5 i Hund) as (V1 & V2).
  destruct (UP.dispatched_first _ _ _ Rn) as (t & Ht).
  destruct (given_once _ _ _ _ p I2 PT) as (N & F). rewrite Ht in F.
  destruct (pick_all _ _ Net.is_ours _ _ N F (ours_given _)) as (old & left & P1 & P2).
  { intros k [nm d] Hk Ho. apply UP.bytes_eqb_eq in Ho. cbn in Ho. subst nm.
    assert (Hd : nth_error (U.s_disp (e_net s2 p)) (length (U.s_disp (e_net s1 p)) + k) = Some (receiver, d)).
    { rewrite Ht, nth_error_app2 by lia. now replace (_ + k - _) with k by lia. }
    pose proof (Net.heard_all _ _ nls (ei_net _ _ I1 p) Fn Rn Ca Da Do Cm Dw _ _ Hd ltac:(lia)) as Hh.
    rewrite <- (ei_from _ _ I2 p) in Hh. apply (proj1 (tagged_in _ _ _)) in Hh. apply In_nth_error in Hh. destruct Hh as (r & Hr).
    assert (Lr : length (e_from s1) <= r).
    { destruct (le_lt_dec (length (e_from s1)) r) as [L|L]; [exact L|exfalso]. assert (Hr2 : nth_error (e_from s1) r = Some (p, (length (U.s_disp (e_net s1 p)) + k, d))) by (rewrite <- Hr, A6; symmetry; apply nth_error_app1; exact L). clear Hr; rename Hr2 into Hr. apply nth_error_In, (proj2 (tagged_in _ _ _)) in Hr.
      rewrite (ei_from _ _ I1 p) in Hr. apply (Net.heard_content _ _ _ (ei_net _ _ I1 p)), UP.nth_error_lt in Hr. lia. }
    assert (Lb : length (e_from s1) = length (PS.begun (e_hist s1))) by (rewrite <- (ei_begun _ _ I1), map_length; reflexivity).
    assert (Hb : nth_error (PS.begun (e_hist s2)) r = Some d) by (rewrite <- (ei_begun _ _ I2), nth_error_map, Hr; reflexivity).
    pose proof (PP.linv_run _ _ (ei_prov _ _ I1)) as L1. pose proof (PP.linv_run _ _ (ei_prov _ _ I2)) as L2.
    rewrite A3 in Hb. destruct (begun_split _ _ _ _ Hb ltac:(lia)) as (b1 & b2 & -> & Er).
    assert (Hin : In r (PS.handed i [] (e_hist s2))).
    { pose proof (ei_prov _ _ I2) as R2. rewrite A3, app_assoc in R2. rewrite A3, app_assoc, <- Er. apply (PP.complete_handed _ _ _ _ i R2).
      - rewrite PP.on_app, on_none; [|intros b Hin; apply (V1 b), in_or_app; auto]. rewrite <- (PP.li_on _ _ L1). exact Hrec.
      - rewrite PP.lmade_app, <- (PP.li_made _ _ L1). unfold recording, P.rec_of in Hrec. destruct (nth_error (P.p_srcs (e_prov s1)) i) as [x|] eqn:Ex; [|discriminate].
        apply UP.nth_error_lt in Ex. lia.
      - intros b Hin. apply (V1 b), in_or_app. right. right. exact Hin.
      - intros Hin. apply V2, in_or_app. right. right. exact Hin.
      - rewrite Er. pose proof (PP.li_begun _ _ L2) as Lc. assert (Hc : nth_error (map P.c_data (P.p_inc (e_prov s2))) r = Some d) by (rewrite Lc, A3; exact Hb).
        rewrite nth_error_map in Hc. destruct (nth_error (P.p_inc (e_prov s2)) r) as [c|] eqn:Ec; [|discriminate]. exists c. split; [exact Ec|]. apply Hset. eapply nth_error_In; eauto. }
    clear - FT Hin Hr. change (length (U.s_disp (e_net s1 p)) + k) with (fst (length (U.s_disp (e_net s1 p)) + k, d)) in *. apply in_map. apply tagged_in.
    induction FT as [|r0 x rs T H FT IH]; [contradiction|]. destruct Hin as [->|Hin]; [left|right; auto]. rewrite Hr in H. injection H as <-. reflexivity. }
  (* what was made *)
  pose proof (UP.bcast_conserved _ _ (ei_net _ _ I1 p)) as M1. pose proof (UP.bcast_conserved _ _ (ei_net _ _ I2 p)) as M2.
  apply (filter_perm Net.is_ours) in M1. apply (filter_perm Net.is_ours) in M2. rewrite !filter_app in M1, M2. rewrite Ht, filter_app, T1 in M2.
  assert (Eq : filter Net.is_ours (U.s_queue (e_net s2 p)) = []).
  { destruct (filter Net.is_ours (U.s_queue (e_net s2 p))) as [|[n d] q] eqn:Eq; [reflexivity|exfalso]. assert (Hin : In (n, d) (filter Net.is_ours (U.s_queue (e_net s2 p)))) by (rewrite Eq; left; reflexivity).
    apply filter_In in Hin. destruct Hin as (Hin & Ho). apply UP.bytes_eqb_eq in Ho. exact (Dq _ _ Hin Ho). }
  rewrite Eq, app_nil_r in M2.
  assert (M3 : Permutation (filter Net.is_ours t) (filter Net.is_ours (U.s_queue (e_net s1 p)) ++ posted p more)).
  { apply (Permutation_app_inv_l (filter Net.is_ours (U.s_disp (e_net s1 p)))). rewrite <- M2, M1, <- app_assoc. reflexivity. }
  exists (map snd (old ++ filter Net.is_ours (U.s_queue (e_net s1 p)))), (map snd left), more. split; [exact S1|]. split.
  - apply (Permutation_map snd) in P1. rewrite map_map in P1. cbn in P1. rewrite P1, <- posted_snd, <- map_app. apply Permutation_map. rewrite M3, app_assoc. reflexivity.
  - rewrite <- posted_snd, <- (ei_made _ _ I1 p), <- map_app. apply Permutation_map. rewrite M1, <- P2, <- !app_assoc. apply Permutation_app_head. apply Permutation_app_comm.
Qed.

(** Preimages under [packet]. *)
Lemma unmap {A B} (f : A -> B) l d : Permutation (map f l) d -> exists ms, Forall2 (fun m x => x = f m) ms d /\ Permutation l ms.
Proof.
  intros H. apply Permutation_sym, Permutation_map_inv in H. destruct H as (ms & -> & Pm). exists ms. split; [|exact Pm].
  clear. induction ms; cbn; constructor; auto.
Qed.
Lemma unmap_left {A B} (f : A -> B) l d r : Permutation (d ++ r) (map f l) -> exists ms rest, Forall2 (fun m x => x = f m) ms d /\ Permutation (ms ++ rest) l.
Proof.
  intros H. destruct (unmap f l (d ++ r) (Permutation_sym H)) as (ms & F & Pm). apply Forall2_app_inv_r in F. destruct F as (m1 & m2 & F1 & F2 & ->). exists m1, m2. split; [exact F1|symmetry; exact Pm].
Qed.

(** * The events in a message *)
Definition chunk_of (x : nat * list (nat * list C.event)) : nchunk := {| nc_pid := pid (fst x); nc_threads := threads_of what (fst x) (snd x) |}.
Definition origins (x : nat * list (nat * list C.event)) : list (nat * C.event) := map (pair (fst x)) (flat_map snd (snd x)).

Lemma message_events ls s p m : einv ls s -> In m (C.cs_sent (e_col s p)) -> Forall2 (received_as pid what s) (origins (p, m)) (events_of (chunk_of (p, m))).
Proof.
  intros I Hm. unfold origins, events_of, chunk_of, threads_of. cbn [fst snd nc_pid nc_threads].
  assert (G : forall k es, In (k, es) m -> forall e, In e es -> exists t, nth_error (C.cs_threads (e_col s p)) (fst e) = Some t /\ C.th_tid t = k).
  { intros k es Hk e He. destruct (only_emitted cap _ _ _ _ _ _ (ei_col _ _ I p) Hm Hk He) as (_ & G). exact G. }
  clear Hm. induction m as [|[k es] m IH]; [constructor|]. cbn [flat_map map fst snd]. rewrite map_app. apply Forall2_app; [|apply IH; intros; eapply G; [right|]; eauto].
  specialize (G k es (or_introl eq_refl)). clear IH. induction es as [|e es IH]; [constructor|]. cbn [map]. constructor; [|apply IH; intros; apply G; right; auto].
  destruct (G e (or_introl eq_refl)) as (t & Et & <-). exists t. cbn. auto.
Qed.

Lemma ordered_ascending p m : nordered m -> ascending_from 0 (threads_of what p m).
Proof.
  assert (G : forall lo, Forall (fun e => (lo <= N.of_nat (fst e))%N) m -> nordered m -> ascending_from lo (threads_of what p m)).
  { induction m as [|[k es] m IH]; intros lo F O; [exact Logic.I|]. cbn. inversion F as [|? ? F1 F2]; subst. inversion O as [|? ? O1 O2]; subst. split; [exact F1|].
    apply IH; [|exact O1]. eapply Forall_impl; [|exact O2]. intros [k' es'] H. unfold lt_keys in H. cbn in *. apply Nat.ltb_lt in H. lia. }
  intros O. apply G; [|exact O]. apply Forall_forall. intros. lia.
Qed.

Local Notation assumptions := (sensible pid what).

Lemma steps_weight p ls : weights (steps_of p ls) <= length (filter adds ls).
Proof.
  induction ls as [|[q a|q a|a] ls IH]; [apply le_n| |exact IH|exact IH]. change (steps_of p (Col q a :: ls)) with ((if q =? p then [a] else []) ++ steps_of p ls). rewrite weights_app.
  assert (X : weights (if q =? p then [a] else []) <= length (if adds (Col q a) then [Col q a] else [])) by (destruct (q =? p), a; apply Nat.leb_le; reflexivity).
  cbn [filter]. destruct (adds (Col q a)); cbn [length] in *; lia.
Qed.
Lemma steps_in p a ls : In a (steps_of p ls) -> In (Col p a) ls.
Proof.
  unfold steps_of. intros H. apply in_flat_map in H. destruct H as ([q b|q b|b] & Hin & H); try contradiction. destruct (Nat.eqb_spec q p) as [->|N]; [|contradiction].
  destruct H as [->|[]]. exact Hin.
Qed.

Lemma message_decoded ls s p m : assumptions ls -> einv ls s -> In m (C.cs_sent (e_col s p)) -> unpack (packet p m) = CGood (chunk_of (p, m)) /\ good_chunk (chunk_of (p, m)).
Proof.
  intros (Ap & Ac & Ai & Al) I Hm. destruct (message_ok cap _ _ _ (ei_col _ _ I p) Hm) as (O & Lm & K). pose proof (steps_weight p ls) as Ls.
  assert (small : forall n, n <= length (filter adds ls) -> (N.of_nat n < 2 ^ 64)%N) by (intros n Hn; eapply N.le_lt_trans; [|exact Al]; lia). split.
  - apply unpack_pack; [apply Ap|]. constructor.
    + now apply ordered_ascending.
    + unfold threads_of. rewrite map_length. apply small. etransitivity; [exact Lm|exact Ls].
    + unfold threads_of. apply Forall_map, Forall_forall. intros [k es] Hk. cbn [fst snd]. destruct (K k es Hk) as (K1 & K2). split; [apply (Ai p), steps_in; exact K1|].
      split; [rewrite map_length; apply small; etransitivity; [exact K2|exact Ls]|]. apply Forall_map, Forall_forall. intros e _. apply Ac.
  - unfold good_chunk, chunk_of, threads_of. cbn [nc_threads fst snd]. apply Forall_map, Forall_forall. intros [k es] _. cbn [fst snd]. apply Forall_map, Forall_forall. intros e _. apply Ac.
Qed.

(** * An interval from its messages *)
Definition sorted_by_time (p : nat) (l : list C.event) : Prop :=
  StronglySorted (fun a b => SFltb (ts_of (te_time (what p (snd b)))) (ts_of (te_time (what p (snd a)))) = false) l.

Lemma of_origin_tagged p i os : of_origin p i os = of_thread i (tagged p os). Proof. reflexivity. Qed.
Lemma origins_tagged p pm : tagged p (flat_map origins pm) = all_events (tagged p pm).
Proof.
  induction pm as [|[q m] pm IH]; [reflexivity|]. cbn [flat_map]. rewrite tagged_app, tagged_cons, IH. unfold origins. cbn [fst snd].
  destruct (Nat.eqb_spec q p) as [->|N]; [now rewrite tagged_same|]. now rewrite tagged_diff by auto.
Qed.
Lemma times_sorted s os order p : Forall2 (received_as pid what s) os order -> StronglySorted (fun a b => shown_before b a = false) order -> sorted_by_time p (tagged p os).
Proof.
  intros F. unfold sorted_by_time. induction F as [|[q e] r os order H F IH]; intros S; [constructor|]. inversion S as [|? ? S1 S2]; subst. change (tagged p ((q, e) :: os)) with (@tagged C.event p (@cons (nat * C.event) (q, e) os)). rewrite tagged_cons.
  destruct (Nat.eqb_spec q p) as [->|N]; [|auto]. constructor; [auto|]. apply Forall_forall. intros e' He. apply (proj1 (tagged_in _ _ _)) in He.
  destruct H as (t & _ & ->). clear - F S2 He. induction F as [|o r os order H F IH]; [contradiction|]. inversion S2 as [|? ? S3 S4]; subst. destruct He as [->|He]; [|auto].
  destruct H as (t' & _ & ->). exact S3.
Qed.
Lemma thread_sorted p i l : sorted_by_time p l -> sorted_by_time p (of_thread i l).
Proof.
  unfold sorted_by_time. apply subseq_sorted. unfold of_thread. induction l as [|x l IH]; cbn; [constructor|]. destruct (fst x =? i); constructor; exact IH.
Qed.

Lemma interval_of ls s i m pm : assumptions ls -> einv ls s -> Forall2 (fun x d => d = packet (fst x) (snd x)) pm (P.data_of i (e_prov s)) ->
  (forall p x, In x (tagged p pm) -> In x (C.cs_sent (e_col s p))) ->
  exists res os, interval m i s = FEntries res /\ Forall2 (shown pid what m s) os res /\
    forall p j, Permutation (of_origin p j os) (of_thread j (all_events (tagged p pm))) /\ sorted_by_time p (of_origin p j os).
Proof.
  intros A I F K.
  assert (K' : forall x, In x pm -> In (snd x) (C.cs_sent (e_col s (fst x)))) by (intros [p x] Hx; apply (K p), tagged_in, Hx).
  assert (E : map unpack (P.data_of i (e_prov s)) = map CGood (map chunk_of pm) /\ Forall good_chunk (map chunk_of pm)).
  { clear K. revert K'. induction F as [|[p x] d pm ds H F IH]; intros K; [split; [reflexivity|constructor]|]. destruct (IH (fun y Hy => K y (or_intror Hy))) as (IH1 & IH2).
    destruct (message_decoded ls s p x A I (K (p, x) (or_introl eq_refl))) as (M1 & M2). cbn [fst snd map] in H |- *. subst d. rewrite IH1, M1. split; [reflexivity|constructor; auto]. }
  destruct E as (E & G). destruct (interval_complete m _ G) as (res & order & Hf & (Ho & Hs & _) & Hsh).
  assert (FO : Forall2 (received_as pid what s) (flat_map origins pm) (received (map chunk_of pm))).
  { unfold received. clear - I K'. induction pm as [|[p x] pm IH]; [constructor|]. cbn [flat_map map]. apply Forall2_app; [|apply IH; intros y Hy; apply K'; right; exact Hy].
    eapply message_events; [exact I|]. apply (K' (p, x)). left. reflexivity. }
  destruct (Forall2_perm_r _ order _ _ (Permutation_sym Ho) FO) as (os & Po & Fo). exists res, os. split; [unfold interval; rewrite E; exact Hf|].
  split; [exact (Forall2_compose _ _ _ _ Fo _ Hsh)|]. intros p j. rewrite of_origin_tagged. split.
  - apply filter_perm. rewrite <- origins_tagged. apply tagged_perm. symmetry. exact Po.
  - apply thread_sorted. eapply times_sorted; eauto.
Qed.

Lemma all_perm (a b : list (list (nat * list C.event))) : Permutation a b -> Permutation (all_events a) (all_events b).
Proof. intros H. apply Permutation_flat_map. exact H. Qed.
Lemma thread_perm j a b : Permutation a b -> Permutation (of_thread j (all_events a)) (of_thread j (all_events b)).
Proof. intros H. apply filter_perm, all_perm, H. Qed.
Lemma event_dec (x y : C.event) : {x = y} + {x <> y}. Proof. repeat decide equality. Qed.

(** * The theorems *)
Theorem sound ls s i m : assumptions ls -> erun ls e0 = Some s -> exists res os, interval m i s = FEntries res /\ Forall2 (shown pid what m s) os res /\
  forall p j, (exists l, subseq l (traced p j ls) /\ Permutation (of_origin p j os) l) /\ (increasing what p (traced p j ls) -> subseq (of_origin p j os) (traced p j ls)).
Proof.
  intros A H. pose proof (run_einv _ _ H) as I. destruct (given ls s i I) as (T & FT & ET & rest & PT).
  destruct (interleave (fun p x kd => snd kd = packet p x) T (fun p ms => exists left, Permutation (ms ++ left) (C.cs_sent (e_col s p)))) as (pm & Fpm & Qpm).
  { intros p. destruct (messages_of ls s T rest p I PT) as (left & Pl). destruct (unmap_left _ _ _ _ Pl) as (ms & r & Fm & Pm). exists ms. split; [|eauto].
    clear - Fm. remember (tagged p T) as t. clear Heqt. revert ms Fm. induction t as [|[k d] t IH]; intros ms Fm; inversion Fm; subst; constructor; auto. }
  assert (Fd : Forall2 (fun x d => d = packet (fst x) (snd x)) pm (P.data_of i (e_prov s))).
  { rewrite <- ET. clear - Fpm. induction Fpm as [|[p x] [q [k d]] pm T (H1 & H2) F IH]; cbn; constructor; auto. cbn in *. now subst. }
  destruct (interval_of ls s i m pm A I Fd) as (res & os & R1 & R2 & R3).
  { intros p x Hx. destruct (Qpm p) as (left & Pl). eapply Permutation_in; [exact Pl|]. apply in_or_app. auto. }
  exists res, os. split; [exact R1|]. split; [exact R2|]. intros p j. destruct (R3 p j) as (R4 & R5). destruct (Qpm p) as (left & Pl).
  apply (thread_perm j) in Pl. rewrite all_events_app, of_thread_app, <- R4 in Pl.
  destruct (sent_accepted cap _ _ j (ei_col _ _ I p)) as (more & Em & _). pose proof (acc_emitted cap _ _ j (ei_col _ _ I p)) as Se.
  assert (Sub : subseq (of_thread j (all_events (C.cs_sent (e_col s p)))) (traced p j ls)).
  { eapply subseq_trans; [exact Se|]. rewrite Em. apply subseq_prefix. }
  split.
  - destruct (perm_sub _ _ _ Pl) as (l & Sl & Ql). exists l. split; [eapply subseq_trans; eauto|symmetry; exact Ql].
  - intros Inc. eapply subseq_trans; [exact Sub|].
    apply (sorted_sub event_dec (fun a b : C.event => SFltb (ts_of (te_time (what p (snd a)))) (ts_of (te_time (what p (snd b))))) _ (subseq_sorted _ _ _ Sub Inc) _ _ Pl R5).
Qed.

Theorem complete ls1 s1 ls2 s2 i m live : assumptions (ls1 ++ ls2) -> erun ls1 e0 = Some s1 -> erun ls2 s1 = Some s2 ->
  recording i s1 -> undisturbed i ls2 -> settled s2 ->
  (forall p, live p = true -> connected p s1 /\ connected p s2 /\ drained p s2 /\ roomy cap (steps_of p ls2) (e_col s1 p)) ->
  exists res os, interval m i s2 = FEntries res /\ Forall2 (shown pid what m s2) os res /\
    forall p j, live p = true -> exists old, subseq old (traced p j ls1) /\ Permutation (of_origin p j os) (old ++ traced p j ls2) /\
      (increasing what p (traced p j (ls1 ++ ls2)) -> of_origin p j os = old ++ traced p j ls2).
Proof.
  intros A H1 H2 Hrec Hund Hset Hlive. pose proof (run_einv _ _ H1) as I1.
  assert (I2 : einv (ls1 ++ ls2) s2) by (apply run_einv; rewrite erun_app, H1; exact H2).
  destruct (given _ s2 i I2) as (T & FT & ET & rest & PT).
  destruct (interleave (fun p x kd => snd kd = packet p x) T (fun p ms => (exists left, Permutation (ms ++ left) (C.cs_sent (e_col s2 p))) /\
     (live p = true -> exists om rm more, C.cs_sent (e_col s2 p) = C.cs_sent (e_col s1 p) ++ more /\ Permutation ms (om ++ more) /\ Permutation (om ++ rm) (C.cs_sent (e_col s1 p))))) as (pm & Fpm & Qpm).
  { assert (Conv : forall p ms, Forall2 (fun x d => d = packet p x) ms (map snd (tagged p T)) -> Forall2 (fun x kd => snd kd = packet p x) ms (tagged p T)).
    { intros p ms Fm. remember (tagged p T) as t. clear Heqt. revert ms Fm. induction t as [|[k d] t IH]; intros ms Fm; inversion Fm; subst; constructor; auto. }
    intros p. destruct (live p) eqn:El.
    - destruct (Hlive p El) as (L1 & L2 & L3 & _). destruct (messages_new ls1 s1 ls2 s2 T rest i p I1 I2 H2 FT PT Hrec Hund Hset L1 L2 L3) as (old & left & more & E1 & E2 & E3).
      destruct (unmap_left _ _ _ _ E3) as (om & rm & Fo & Po).
      assert (Eo : old = map (packet p) om) by (clear - Fo; induction Fo; cbn [map]; congruence). subst old. rewrite <- map_app in E2.
      destruct (unmap _ _ _ (Permutation_sym E2)) as (ms & Fm & Pm). exists ms. split; [apply Conv; exact Fm|]. split; [|intros _; exists om, rm, more; split; [exact E1|]; split; [symmetry; exact Pm|exact Po]].
      exists rm. rewrite <- Pm, E1, <- Po, <- !app_assoc. apply Permutation_app_head, Permutation_app_comm.
    - destruct (messages_of _ s2 T rest p I2 PT) as (left & Pl). destruct (unmap_left _ _ _ _ Pl) as (ms & r & Fm & Pm). exists ms. split; [apply Conv; exact Fm|]. split; [eauto|discriminate]. }
  assert (Fd : Forall2 (fun x d => d = packet (fst x) (snd x)) pm (P.data_of i (e_prov s2))).
  { rewrite <- ET. clear - Fpm. induction Fpm as [|[p x] [q [k d]] pm T (H1 & H2) F IH]; cbn; constructor; auto. cbn in *. now subst. }
  destruct (interval_of _ s2 i m pm A I2 Fd) as (res & os & R1 & R2 & R3).
  { intros p x Hx. destruct (Qpm p) as ((left & Pl) & _). eapply Permutation_in; [exact Pl|]. apply in_or_app. auto. }
  exists res, os. split; [exact R1|]. split; [exact R2|]. intros p j El. destruct (R3 p j) as (R4 & R5). destruct (Qpm p) as (_ & Q). destruct (Q El) as (om & rm & more & E1 & E2 & E3).
  destruct (Hlive p El) as (_ & _ & (D1 & D2 & _) & Hroom).
  destruct (run_parts ls2 s1 s2 (ei_net _ _ I1) H2) as (A1 & _). pose proof (roomy_accepts cap j _ _ _ (A1 p) Hroom) as Racc.
  destruct (sent_accepted cap _ _ j (ei_col _ _ I1 p)) as (buf & Eb & _). destruct (sent_accepted cap _ _ j (ei_col _ _ I2 p)) as (none & En & Dn). rewrite (Dn D2 D1), app_nil_r in En.
  rewrite En, Eb, E1, all_events_app, of_thread_app, <- app_assoc in Racc. apply app_inv_head in Racc.
  apply (thread_perm j) in E3. rewrite all_events_app, of_thread_app in E3. destruct (perm_sub _ _ _ E3) as (old & So & Po).
  assert (Sub : subseq (old ++ buf) (traced p j ls1)).
  { eapply subseq_trans; [exact (acc_emitted cap _ _ j (ei_col _ _ I1 p))|]. rewrite Eb. clear - So. induction So; cbn; [|constructor; auto|constructor; auto].
    induction l as [|x l IH]; cbn; [apply subseq_refl|constructor; exact IH]. }
  assert (Pm : Permutation (of_origin p j os) ((old ++ buf) ++ traced p j ls2)).
  { rewrite R4. apply (thread_perm j) in E2. rewrite E2, all_events_app, of_thread_app, Racc, <- app_assoc, Po. reflexivity. }
  exists (old ++ buf). split; [exact Sub|]. split; [exact Pm|]. intros Inc. rewrite traced_app in Inc.
  assert (Sub2 : subseq ((old ++ buf) ++ traced p j ls2) (traced p j ls1 ++ traced p j ls2)).
  { clear - Sub. induction Sub; cbn; [|constructor; auto|constructor; auto]. induction l as [|x l IH]; cbn; [apply subseq_refl|constructor; exact IH]. }
  pose proof (subseq_sorted _ _ _ Sub2 Inc) as Inc2. apply subseq_full; [|rewrite (Permutation_length Pm); lia].
  apply (sorted_sub event_dec (fun a b : C.event => SFltb (ts_of (te_time (what p (snd a)))) (ts_of (te_time (what p (snd b))))) _ Inc2 _ []); [rewrite app_nil_r; exact Pm|exact R5].
Qed.
End Machine.
