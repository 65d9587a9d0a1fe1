(** Proofs of C92 and C93. *)
From Coq Require Import String List Arith NArith ZArith Ascii Bool Lia Floats.SpecFloat Sorting.Sorted Sorting.Permutation.
Import ListNotations.
From Verif Require Import Protocol_model OMap_model Json_model Json_spec Json_proofs Session_model Session_spec Session_proofs TraceEvent_model Names_model Collector_spec Native_model Native_spec Cbor_spec.
From Verif Require Import Record_model Record_spec Record_proofs EndToEnd_model EndToEnd_spec EndToEnd_lists EndToEnd_proofs File_spec.
From Verif Require Config_model Config_spec Toggle_spec Toggle_proofs.
Local Notation length := List.length.

(** ** Every entry of an interval can be written *)
Section Machine.
Context (fw : spec_float -> bytes) (fr : bytes -> option spec_float).
Variable pid : nat -> Z.
Variable what : nat -> nat -> tev.
Variable cap : nat.

Lemma names_fit m : names_utf8 m -> map_fits m.
Proof.
  intros H. apply Forall_forall. intros [q l] Hq. apply Forall_forall. intros [id nm] Hn. exact (H _ _ _ _ Hq Hn).
Qed.

Lemma chunk_fit ls s p m : sensible pid what ls -> times_written fw fr what -> einv pid what cap ls s -> In m (C.cs_sent (e_col s p)) ->
  chunk_fits fw fr (Cbor_model.unpack (packet pid what p m)).
Proof.
  intros A T I Hm. destruct (message_decoded pid what cap ls s p m A I Hm) as (E & _). rewrite E. destruct A as (Ap & Ac & Ai & _).
  cbn [chunk_fits chunk_of nc_pid nc_threads fst snd]. split.
  - pose proof (Ap p) as Q. unfold process_number in Q. unfold int32. cbn in Q. lia.
  - unfold threads_of. apply Forall_map, Forall_forall. intros [k es] Hk. cbn [fst snd].
    destruct (EndToEnd_parts.message_ok cap _ _ _ (ei_col _ _ _ _ _ I p) Hm) as (_ & _ & K). destruct (K k es Hk) as (K1 & _). split.
    + apply (Ai p), steps_in. exact K1.
    + apply Forall_map, Forall_forall. intros e _. split; [apply T|]. destruct (Ac p (snd e)) as (_ & Ft). destruct (te_value (what p (snd e))) as [z|] eqn:Z; [|exact Logic.I].
      pose proof (ft_value _ Ft z Z) as Q. unfold int64. cbn in Q. lia.
Qed.

Lemma data_fit ls s i : sensible pid what ls -> times_written fw fr what -> erun pid what cap ls e0 = Some s ->
  Forall (chunk_fits fw fr) (map Cbor_model.unpack (P.data_of i (e_prov s))).
Proof.
  intros A T H. pose proof (run_einv pid what cap _ _ H) as I. destruct (given pid what cap ls s i I) as (Tn & _ & ET & rest & PT).
  apply Forall_map, Forall_forall. intros d Hd. rewrite <- ET in Hd. apply in_map_iff in Hd as ([p [k d']] & <- & Hx). cbn [snd].
  destruct (messages_of pid what cap ls s Tn rest p I PT) as (left & Pl).
  assert (J : In d' (map (packet pid what p) (C.cs_sent (e_col s p)))).
  { eapply Permutation_in; [exact Pl|]. apply in_or_app. left. apply in_map_iff. exists (k, d'). split; [reflexivity|]. apply tagged_in. exact Hx. }
  apply in_map_iff in J as (m & <- & Hm). eapply chunk_fit; eauto.
Qed.

Lemma entries_wf ls s i m res : sensible pid what ls -> times_written fw fr what -> names_utf8 m -> erun pid what cap ls e0 = Some s ->
  interval m i s = FEntries res -> Forall (wf fw fr) (map entry_json res).
Proof.
  intros A T N H E. apply Forall_map. eapply Forall_impl; [intros e He; apply entry_wf; exact He|].
  exact (finish_fits fw fr m _ res (names_fit m N) (data_fit ls s i A T H) E).
Qed.

Lemma read_all m s os res : Forall2 (shown pid what m s) os res -> Forall2 (read_as pid what m s) os (map entry_json res).
Proof. induction 1 as [|o e os res H F IH]; cbn; constructor; auto. exists e. split; [exact H|apply entry_shows]. Qed.

(** ** C92 *)
Theorem file_sound ls s i m before after : sensible pid what ls -> times_written fw fr what -> names_utf8 m -> erun pid what cap ls e0 = Some s ->
  Forall (wf fw fr) before -> Forall (wf fw fr) after ->
  exists res t js os, interval m i s = FEntries res /\ collect_text fw (before ++ map entry_json res ++ after) = Some t /\
  parse fr t = Some (JArr (before ++ js ++ after)) /\ Forall2 (read_as pid what m s) os js /\
  forall p j, (exists l, subseq l (traced p j ls) /\ Permutation (of_origin p j os) l) /\ (increasing what p (traced p j ls) -> subseq (of_origin p j os) (traced p j ls)).
Proof.
  intros A T N H Wb Wa. destruct (sound pid what cap ls s i m A H) as (res & os & E & F & Q). pose proof (entries_wf _ _ _ _ _ A T N H E) as W.
  destruct (collect_ok fw fr (before ++ map entry_json res ++ after)) as (t & Ct & Pt). { apply Forall_app; split; [exact Wb|]. apply Forall_app; auto. }
  exists res, t, (map entry_json res), os. split; [exact E|]. split; [exact Ct|]. split; [exact Pt|]. split; [apply read_all; exact F|exact Q].
Qed.

Theorem file_complete ls1 s1 ls2 s2 i m live before after : sensible pid what (ls1 ++ ls2) -> times_written fw fr what -> names_utf8 m ->
  erun pid what cap ls1 e0 = Some s1 -> erun pid what cap ls2 s1 = Some s2 ->
  recording i s1 -> undisturbed i ls2 -> settled s2 ->
  (forall p, live p = true -> connected p s1 /\ connected p s2 /\ drained p s2 /\ roomy cap (steps_of p ls2) (e_col s1 p)) ->
  Forall (wf fw fr) before -> Forall (wf fw fr) after ->
  exists res t js os, interval m i s2 = FEntries res /\ collect_text fw (before ++ map entry_json res ++ after) = Some t /\
  parse fr t = Some (JArr (before ++ js ++ after)) /\ Forall2 (read_as pid what m s2) os js /\
  forall p j, live p = true -> exists old, subseq old (traced p j ls1) /\ Permutation (of_origin p j os) (old ++ traced p j ls2) /\
    (increasing what p (traced p j (ls1 ++ ls2)) -> of_origin p j os = old ++ traced p j ls2).
Proof.
  intros A T N H1 H2 R U St L Wb Wa. destruct (complete pid what cap ls1 s1 ls2 s2 i m live A H1 H2 R U St L) as (res & os & E & F & Q).
  assert (H : erun pid what cap (ls1 ++ ls2) e0 = Some s2) by (rewrite erun_app, H1; exact H2).
  pose proof (entries_wf _ _ _ _ _ A T N H E) as W.
  destruct (collect_ok fw fr (before ++ map entry_json res ++ after)) as (t & Ct & Pt). { apply Forall_app; split; [exact Wb|]. apply Forall_app; auto. }
  exists res, t, (map entry_json res), os. split; [exact E|]. split; [exact Ct|]. split; [exact Pt|]. split; [apply read_all; exact F|exact Q].
Qed.

(** The same for a viewer: the pieces it gets. *)
Theorem viewer_complete braces ls1 s1 ls2 s2 i m live t id : (forall t f, fr t = Some f -> float_ok fw fr f) -> wf fw fr braces ->
  sensible pid what (ls1 ++ ls2) -> times_written fw fr what -> names_utf8 m ->
  erun pid what cap ls1 e0 = Some s1 -> erun pid what cap ls2 s1 = Some s2 ->
  recording i s1 -> undisturbed i ls2 -> settled s2 ->
  (forall p, live p = true -> connected p s1 /\ connected p s2 /\ drained p s2 /\ roomy cap (steps_of p ls2) (e_col s1 p)) ->
  message fr t (name_of REnd) id ->
  exists res es a pieces c groups os, interval m i s2 = FEntries res /\ process fw fr braces [map entry_json res] t = Done es /\
  es = [EStop 0; ESend a; EFinish 0] ++ map ESend pieces ++ [ESend c] /\ Session_spec.answer fr a id JNull /\ Forall2 (data_piece fr) pieces groups /\
  Forall (fun g => length g <= 1000) groups /\ completion fr c /\ Forall2 (read_as pid what m s2) os (concat groups) /\
  forall p j, live p = true -> exists old, subseq old (traced p j ls1) /\ Permutation (of_origin p j os) (old ++ traced p j ls2) /\
    (increasing what p (traced p j (ls1 ++ ls2)) -> of_origin p j os = old ++ traced p j ls2).
Proof.
  intros FL Wb A T N H1 H2 R U St L Msg. destruct (complete pid what cap ls1 s1 ls2 s2 i m live A H1 H2 R U St L) as (res & os & E & F & Q).
  assert (H : erun pid what cap (ls1 ++ ls2) e0 = Some s2) by (rewrite erun_app, H1; exact H2).
  pose proof (entries_wf _ _ _ _ _ A T N H E) as W.
  destruct (request_lemma fw fr braces FL Wb [map entry_json res] t REnd id) as (es & D & a & pieces & c & groups & X1 & X2 & X3 & X4 & X5 & X6); [constructor; [exact W|constructor]|exact Msg|].
  exists res, es, a, pieces, c, groups, os. split; [exact E|]. split; [exact D|]. split; [exact X1|]. split; [exact X2|]. split; [exact X3|]. split; [exact X4|]. split; [exact X6|].
  split; [|exact Q]. rewrite X5. cbn [concat]. rewrite app_nil_r. apply read_all. exact F.
Qed.
End Machine.

(** ** C93: the reader of blocks *)
Section Blocks.
Variable pid : nat -> Z.
Variable what : nat -> nat -> tev.

(** What an entry of the thread must be like. *)
Definition good (m : mapping) (P T : Z) (e : tev) (j : json spec_float) : Prop :=
  is_of P T j = true /\ (phase_of j =? "B")%char = (te_type e =? SCOPE_ENTRY)%N /\ (phase_of j =? "E")%char = (te_type e =? SCOPE_EXIT)%N /\
  (te_type e <> COUNTER -> tells m P e j).

Lemma read_good m s p j tid o x : (forall q, pid q = pid p -> q = p) ->
  read_as pid what m s o x -> (exists t, nth_error (C.cs_threads (e_col s p)) j = Some t /\ C.th_tid t = tid) ->
  (forall k t, nth_error (C.cs_threads (e_col s p)) k = Some t -> C.th_tid t = tid -> k = j) ->
  if (fst o =? p) && (fst (snd o) =? j) then good m (pid p) (Z.of_nat tid) (what p (snd (snd o))) x else is_of (pid p) (Z.of_nat tid) x = false.
Proof.
  intros UP (e & (r & (t & Ht & ->) & Sh) & V1 & V2 & _ & V3 & V4 & V5 & _) (t0 & Ht0 & Et0) UT.
  assert (IS : is_of (pid p) (Z.of_nat tid) x = (pid (fst o) =? pid p)%Z && (Z.of_nat (C.th_tid t) =? Z.of_nat tid)%Z).
  { unfold is_of. rewrite V4, V5. rewrite (sh_pid _ _ _ Sh), (sh_tid _ _ _ Sh). unfold r_pid, r_tid. cbn [fst snd]. now rewrite nat_N_Z. }
  destruct (Nat.eqb_spec (fst o) p) as [E|NE]; cbn [andb].
  - destruct (Nat.eqb_spec (fst (snd o)) j) as [E2|NE2].
    + rewrite E in Ht. rewrite E2 in Ht. rewrite Ht in Ht0. injection Ht0 as <-. split.
      { rewrite IS, E, Et0, !Z.eqb_refl. reflexivity. }
      assert (PH : phase_of x = en_ph e) by (unfold phase_of; rewrite V1; reflexivity). rewrite PH.
      pose proof (sh_phase _ _ _ Sh) as Ph. unfold r_ev in Ph. cbn [snd] in Ph. rewrite E in Ph. split; [|split].
      * inversion Ph; reflexivity.
      * inversion Ph; reflexivity.
      * intros NC. split.
        -- rewrite V2. f_equal. f_equal. rewrite (sh_name _ _ _ Sh). unfold r_ev, r_pid. cbn [fst snd]. rewrite E. apply N.eqb_neq in NC. rewrite NC. reflexivity.
        -- rewrite V3, (sh_time _ _ _ Sh). unfold r_ev. cbn [snd]. rewrite E. reflexivity.
    + rewrite IS. rewrite E in Ht. apply andb_false_iff. right. apply Z.eqb_neq. intros Q. apply Nat2Z.inj in Q. apply NE2. eapply UT; eauto.
  - rewrite IS. apply andb_false_iff. left. apply Z.eqb_neq. intros Q. apply NE. auto.
Qed.

Lemma filtered m s p j tid os js : distinct pid s p j tid -> Forall2 (read_as pid what m s) os js ->
  Forall2 (fun c x => good m (pid p) (Z.of_nat tid) (what p (snd c)) x) (of_origin p j os) (filter (is_of (pid p) (Z.of_nat tid)) js).
Proof.
  intros (UP & Ex & UT). induction 1 as [|o x os js H F IH]; [constructor|].
  pose proof (read_good m s p j tid o x UP H Ex UT) as G. unfold of_origin, of_thread in *. cbn [filter].
  destruct (fst o =? p); cbn [andb map filter] in *.
  - destruct (fst (snd o) =? j).
    + destruct G as (G1 & G2). rewrite G1. constructor; [split; [exact G1|exact G2]|exact IH].
    + rewrite G. exact IH.
  - rewrite G. exact IH.
Qed.

Lemma pairs_filter P T l : forall st, pairs P T st l = pairs P T st (filter (is_of P T) l).
Proof.
  induction l as [|x l IH]; intros st; [reflexivity|]. cbn [filter pairs]. destruct (is_of P T x) eqn:E; [|apply IH]. cbn [pairs]. rewrite E.
  destruct (_ =? "B")%char; [apply IH|]. destruct (_ =? "E")%char; [|apply IH]. destruct st; [apply IH|]. now rewrite IH.
Qed.

Lemma pairs_skip P T l : only_names l -> forall st l', pairs P T st (l ++ l') = pairs P T st l'.
Proof.
  induction 1 as [|x l H F IH]; intros st l'; [reflexivity|]. cbn [app pairs]. rewrite H. cbn. destruct (is_of P T x); apply IH.
Qed.
Lemma pairs_skip_end P T l : only_names l -> forall l' st, pairs P T st (l' ++ l) = pairs P T st l'.
Proof.
  intros H. induction l' as [|x l' IH]; intros st; cbn [app pairs].
  - rewrite <- (app_nil_r l). now rewrite pairs_skip.
  - destruct (is_of P T x); [|apply IH]. destruct (_ =? "B")%char; [apply IH|]. destruct (_ =? "E")%char; [|apply IH]. destruct st; [apply IH|]. now rewrite IH.
Qed.

(** The reader of the file and the reader of the record do the same. *)
Definition same_event (m : mapping) (P : Z) (evs : list tev) (k : nat) (x : json spec_float) : Prop :=
  exists e, nth_error evs k = Some e /\ tells m P e x.
Lemma pairs_shown m P T evs : forall R js, Forall2 (fun ke x => good m P T (snd ke) x) R js -> (forall k e, In (k, e) R -> nth_error evs k = Some e) ->
  forall st st', Forall2 (same_event m P evs) st st' ->
  Forall2 (fun a b => same_event m P evs (fst a) (fst b) /\ same_event m P evs (snd a) (snd b)) (Toggle_spec.shown st R) (pairs P T st' js).
Proof.
  intros R js F. induction F as [|[k e] x R js (G1 & G2 & G3 & G4) F IH]; intros K st st' S; [constructor|]. cbn [snd] in *.
  assert (K' : forall k e, In (k, e) R -> nth_error evs k = Some e) by (intros; apply K; right; assumption).
  assert (Ke : nth_error evs k = Some e) by (apply K; left; reflexivity).
  cbn [Toggle_spec.shown pairs]. rewrite G1, G2, G3. destruct (te_type e =? SCOPE_ENTRY)%N eqn:T1.
  - apply IH; auto. constructor; auto. exists e. split; [exact Ke|]. apply G4. apply N.eqb_eq in T1. rewrite T1. discriminate.
  - destruct (te_type e =? SCOPE_EXIT)%N eqn:T2; [|apply IH; auto].
    inversion S as [|b b' st1 st1' Hb Hst]; subst; [apply IH; auto|]. constructor; [|apply IH; auto]. split; [exact Hb|]. exists e. split; [exact Ke|]. apply G4. apply N.eqb_eq in T2. rewrite T2. discriminate.
Qed.

Lemma recorded_nth m : forall l k j e, In (j, e) (Toggle_spec.recorded k m l) -> k <= j /\ nth_error l (j - k) = Some e.
Proof.
  induction m as [|b m IH]; intros [|e0 l] k j e I; try contradiction. cbn in I.
  assert (R : In (j, e) (Toggle_spec.recorded (S k) m l) -> k <= j /\ nth_error (e0 :: l) (j - k) = Some e).
  { intros J. apply IH in J as (J1 & J2). split; [lia|]. replace (j - k) with (S (j - S k)) by lia. exact J2. }
  destruct b; [destruct I as [I|I]; [injection I as <- <-; rewrite Nat.sub_diag; auto|auto]|auto].
Qed.

Lemma Forall2_map_same {A B C D} (f : A -> C) (g : B -> C) (Q : C -> D -> Prop) : forall l l', map f l = map g l' -> forall x, Forall2 (fun b d => Q (g b) d) l' x -> Forall2 (fun a d => Q (f a) d) l x.
Proof.
  induction l as [|a l IH]; intros [|b l'] E x H; try discriminate E; inversion H; subst; [constructor|]. injection E as E1 E2. constructor; [now rewrite E1|eauto].
Qed.

Lemma file_pairs m s p j tid os js prog mask : distinct pid s p j tid -> Forall2 (read_as pid what m s) os js ->
  map (fun c => what p (snd c)) (of_origin p j os) = map snd (Toggle_spec.recorded 0 mask (Toggle_spec.events_of prog)) ->
  Forall2 (fun a b => same_event m (pid p) (Toggle_spec.events_of prog) (fst a) (fst b) /\ same_event m (pid p) (Toggle_spec.events_of prog) (snd a) (snd b))
    (Toggle_spec.shown [] (Toggle_spec.recorded 0 mask (Toggle_spec.events_of prog))) (pairs (pid p) (Z.of_nat tid) [] js).
Proof.
  intros D F E. rewrite pairs_filter. apply pairs_shown; [|intros k e I; apply recorded_nth in I as (_ & I); now rewrite Nat.sub_0_r in I|constructor].
  apply (Forall2_map_same snd (fun c => what p (snd c)) (fun e x => good m (pid p) (Z.of_nat tid) e x) _ _ (eq_sym E)). apply filtered with (s := s); auto.
Qed.
End Blocks.

Theorem blocks_in_file fw fr pid what cap ls1 s1 ls2 s2 i m live before after p j tid prog mask :
  sensible pid what (ls1 ++ ls2) -> times_written fw fr what -> names_utf8 m ->
  erun pid what cap ls1 e0 = Some s1 -> erun pid what cap ls2 s1 = Some s2 ->
  recording i s1 -> undisturbed i ls2 -> settled s2 ->
  (forall p, live p = true -> connected p s1 /\ connected p s2 /\ drained p s2 /\ roomy cap (steps_of p ls2) (e_col s1 p)) ->
  Forall (wf fw fr) before -> Forall (wf fw fr) after -> only_names before -> only_names after ->
  live p = true -> distinct pid s2 p j tid -> traced p j ls1 = [] -> increasing what p (traced p j (ls1 ++ ls2)) ->
  Config_spec.scoped_only prog -> Toggle_spec.one_stretch mask -> length mask = length (Toggle_spec.events_of prog) ->
  map (fun c => what p (snd c)) (traced p j ls2) = map snd (Toggle_spec.recorded 0 mask (Toggle_spec.events_of prog)) ->
  exists res t js, interval m i s2 = FEntries res /\ collect_text fw (before ++ map entry_json res ++ after) = Some t /\ parse fr t = Some (JArr js) /\
    let evs := Toggle_spec.events_of prog in
    (forall x y, In (x, y) (Toggle_spec.blocks prog) -> Toggle_spec.in_record mask x -> Toggle_spec.in_record mask y ->
       exists b e ex ey, In (b, e) (pairs (pid p) (Z.of_nat tid) [] js) /\ nth_error evs x = Some ex /\ nth_error evs y = Some ey /\ tells m (pid p) ex b /\ tells m (pid p) ey e) /\
    (forall b e, In (b, e) (pairs (pid p) (Z.of_nat tid) [] js) ->
       exists x y ex ey, In (x, y) (Toggle_spec.blocks prog) /\ nth_error evs x = Some ex /\ nth_error evs y = Some ey /\ tells m (pid p) ex b /\ tells m (pid p) ey e).
Proof.
  intros A T N H1 H2 R U St L Wb Wa Ob Oa Lp D E1 Inc SO OS LM EV.
  destruct (file_complete fw fr pid what cap ls1 s1 ls2 s2 i m live before after A T N H1 H2 R U St L Wb Wa) as (res & t & js & os & X1 & X2 & X3 & X4 & X5).
  destruct (X5 p j Lp) as (old & So & _ & Eo). specialize (Eo Inc). rewrite E1 in So. assert (old = []) as -> by (inversion So; reflexivity). cbn [app] in Eo.
  exists res, t, (before ++ js ++ after). split; [exact X1|]. split; [exact X2|]. split; [exact X3|]. cbn zeta.
  rewrite (pairs_skip _ _ _ Ob), (pairs_skip_end _ _ _ Oa). rewrite <- Eo in EV.
  pose proof (file_pairs pid what m s2 p j tid os js prog mask D X4 EV) as F.
  pose proof (Toggle_proofs.stretch_right prog mask SO LM OS) as SR. split.
  - intros x y I Ix Iy. assert (Q : In (x, y) (Toggle_spec.shown [] (Toggle_spec.recorded 0 mask (Toggle_spec.events_of prog)))) by (apply SR; auto).
    clear - F Q. induction F as [|a b l l' (Ha & Hb) F IH]; [contradiction|]. destruct Q as [->|Q].
    + destruct b as [b e]. cbn [fst snd] in *. destruct Ha as (ex & Ex & Tx). destruct Hb as (ey & Ey & Ty). exists b, e, ex, ey. split; [left; reflexivity|auto].
    + destruct (IH Q) as (b0 & e & ex & ey & I & Z). exists b0, e, ex, ey. split; [right; exact I|exact Z].
  - intros b e I. assert (Q : exists x y, In (x, y) (Toggle_spec.shown [] (Toggle_spec.recorded 0 mask (Toggle_spec.events_of prog))) /\
      same_event m (pid p) (Toggle_spec.events_of prog) x b /\ same_event m (pid p) (Toggle_spec.events_of prog) y e).
    { clear - F I. induction F as [|a c l l' (Ha & Hb) F IH]; [contradiction|]. destruct I as [->|I].
      - destruct a as [x y]. exists x, y. split; [left; reflexivity|auto].
      - destruct (IH I) as (x & y & J & Z). exists x, y. split; [right; exact J|exact Z]. }
    destruct Q as (x & y & J & (ex & Ex & Tx) & (ey & Ey & Ty)). apply SR in J as (J & _). exists x, y, ex, ey. auto.
Qed.
