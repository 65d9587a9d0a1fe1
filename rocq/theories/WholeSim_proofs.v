(** The machine of C104 does what the one of C47 does. *)
From Coq Require Import List Arith NArith ZArith Bool Lia.
Import ListNotations.
From Verif Require RingBuffer_model.
From Verif Require Import UnixSystem_proofs Collector_model Collector_spec Collector_proofs RingsStep_proofs Rings_model Rings_spec Rings_proofs.
From Verif Require Import TraceEvent_model Native_model Cbor_model EndToEnd_model EndToEnd_spec.
From Verif Require EndToEnd_proofs.
From Verif Require Import Whole_model Whole_spec WholeParts_proofs WholeProc_proofs.
Local Notation length := List.length.
Module EP := EndToEnd_proofs.

Section Sim.
Variables (n : nat) (pid : nat -> Z) (what : nat -> nat -> tev).
Local Notation cap := (n - 1).

Record rel (x : xsys) (e : esys) : Prop := {
  re_sim : forall p, sim (w_rings (x_proc x p)) (e_col e p);
  re_rinv : forall p, rinv n (w_rings (x_proc x p));
  re_cinv : forall p, cinv (e_col e p);
  re_winv : forall p, winv (x_proc x p);
  re_att : forall p, cs_attached (e_col e p) = true /\ cs_lost (e_col e p) = [];
  re_net : forall p, e_net e p = x_net x p;
  re_prov : e_prov e = x_prov x
}.

Record follows (ls : list xlabel) (els : list elabel) (x' : xsys) (e e' : esys) : Prop := {
  fo_run : erun pid what cap els e = Some e';
  fo_crun : forall p, crun cap (steps_of p els) (e_col e p) = Some (e_col e' p);
  fo_acc : forall p j, acc_of j (e_col e' p) = acc_of j (e_col e p) ++ traced p j els;
  fo_room : forall p, EndToEnd_spec.roomy cap (steps_of p els) (e_col e p);
  fo_ids : forall p tid, In (Col p (TStart tid)) els -> In tid (ids (w_switch (x_proc x' p)));
  fo_prv : forall a, In (Prv a) els -> In (XPrv a) ls;
  fo_len : length (filter adds els) <= length (filter by_process ls)
}.

Lemma wrapped p m : filed_packet pid what p (wrap m) = packet pid what p m.
Proof.
  unfold filed_packet, packet. f_equal. unfold filed_threads, threads_of, wrap. rewrite map_map. apply map_ext. intros [k l]. cbn [fst snd]. f_equal. rewrite map_map. reflexivity.
Qed.
Lemma new_same p (l l' : list (list (nat * list C.event))) :
  map (fun m => U.MakeBcast receiver (filed_packet pid what p m)) (skipn (length (map wrap l)) (map wrap l')) = map (fun m => U.MakeBcast receiver (packet pid what p m)) (skipn (length l) l').
Proof. rewrite map_length, skipn_map, map_map. apply map_ext. intro m. now rewrite wrapped. Qed.

Lemma upd_at {A} (f : nat -> A) k v : U.upd f k v k = v.
Proof. unfold U.upd. now rewrite Nat.eqb_refl. Qed.
Lemma upd_other {A} (f : nat -> A) k v q : q <> k -> U.upd f k v q = f q.
Proof. unfold U.upd. intro N. destruct (Nat.eqb_spec q k); [contradiction|reflexivity]. Qed.

Lemma ring_owner x e p t : rel x e -> In t (cs_threads (e_col e p)) -> In (th_tid t) (ids (w_switch (x_proc x p))).
Proof.
  intros [A B C D _ _ _] Ht. apply In_nth_error in Ht. destruct Ht as (j & Hj). pose proof (sm_threads _ _ (A p)) as F.
  assert (L : j < length (rs_threads (w_rings (x_proc x p)))). { rewrite (Forall2_len _ _ _ F). eapply nth_error_lt; eauto. }
  destruct (wi_owner _ (D p) _ L) as (i & Hi). destruct (wi_link _ (D p) _ _ Hi) as (u & Hu & Li & _). destruct (Forall2_at _ _ _ F _ _ Hu) as (t' & Ht' & T & _).
  rewrite Hj in Ht'. injection Ht' as <-. rewrite T. eapply nth_error_In. exact Li.
Qed.

Lemma steps_one p q a : steps_of p [Col q a] = if q =? p then [a] else [].
Proof. cbn. now rewrite app_nil_r. Qed.

(** A step of the sender is none that adds anything. *)
Lemma light_step l s s' c c' cl : of_sender l = true -> rstep n l s = Some s' -> rinv n s -> sim s c -> sim s' c' -> cstep cap cl c = Some c' -> emits [cl] c c' -> adds (Col 0 cl) = false.
Proof.
  intros Of St I S0 S1 Cs Em. assert (Len : length (rs_threads s') = length (rs_threads s)).
  { destruct (ring_count _ _ _ _ St) as [E|(tid & q & -> & _)]; [exact E|discriminate Of]. }
  pose proof (Forall2_len _ _ _ (sm_threads _ _ S0)) as L0. pose proof (Forall2_len _ _ _ (sm_threads _ _ S1)) as L1.
  destruct cl as [tid|i y| | | | | | | |]; try reflexivity; exfalso.
  - cbn [cstep] in Cs. destruct (existsb _ _); [discriminate Cs|]. destruct (OMap_model.mfind _ _ _); [discriminate Cs|]. injection Cs as <-. cbn [cs_threads] in L1. rewrite app_length in L1. cbn in L1. lia.
  - specialize (Em i). rewrite emissions_one, Nat.eqb_refl in Em. unfold acc_of in Em.
    destruct (nth_error (rs_threads s) i) as [u|] eqn:Hu.
    + destruct (Forall2_at _ _ _ (sm_threads _ _ S0) _ _ Hu) as (t & Ht & _ & _ & A0 & _). assert (T : ~ touches i l) by (destruct l; cbn; auto; discriminate Of).
      destruct (frame _ _ _ _ _ _ I St T Hu) as (u' & Hu' & _ & Al & _). destruct (Forall2_at _ _ _ (sm_threads _ _ S1) _ _ Hu') as (t' & Ht' & _ & _ & A1 & _).
      rewrite Ht, Ht' in Em. rewrite A0, A1, Al in Em. apply (f_equal (@length _)) in Em. rewrite app_length in Em. cbn in Em. lia.
    + apply nth_error_None in Hu. destruct (nth_error (cs_threads c) i) eqn:H0; [apply nth_error_lt in H0; lia|]. destruct (nth_error (cs_threads c') i) eqn:H1; [apply nth_error_lt in H1; lia|]. discriminate Em.
Qed.

Lemma xstep_sim l x e x' : rel x e -> xstep n pid what l x = Some x' -> exists els e', rel x' e' /\ follows [l] els x' e e'.
Proof.
  intros R H. pose proof R as [A B C D T N Q]. destruct l as [p a|p a|a]; cbn [xstep] in H.
  - destruct (wstep n a (x_proc x p)) as [w|] eqn:W; [|discriminate H]. destruct (U.run _ (x_net x p)) as [nn|] eqn:Un; [|discriminate H]. injection H as <-.
    destruct (wstep_parts _ _ _ _ W) as (_ & Ring). pose proof (wstep_winv _ _ _ _ (B p) (D p) W) as Dw.
    assert (J : simulated n (w_rings w) (e_col e p)).
    { destruct Ring as [->|(rl & Rs)]; [apply no_step; auto|]. exact (step_sim _ _ _ _ _ (A p) (C p) (B p) Rs). }
    destruct J as (cls & c' & Cr & Sm & Ri & Em & Len).
    assert (Ci : cinv c') by (eapply run_cinv; eauto).
    assert (At : cs_attached c' = true /\ cs_lost c' = []). { destruct (T p) as (T1 & T2). destruct (run_attached _ _ _ _ T1 Cr) as (X & Y). split; congruence. }
    rewrite (sm_sent _ _ (A p)), (sm_sent _ _ Sm), new_same in Un. rewrite <- N in Un.
    destruct cls as [|cl [|]]; [| |cbn in Len; lia].
    + injection Cr as <-. rewrite skipn_all in Un. injection Un as <-. exists [], e. assert (R' : rel {| x_proc := U.upd (x_proc x) p w; x_net := U.upd (x_net x) p (e_net e p); x_prov := x_prov x |} e).
      { constructor; cbn [x_proc x_net x_prov]; auto; intro q; (destruct (Nat.eq_dec q p) as [->|Ne]; [rewrite upd_at|rewrite upd_other by exact Ne]); auto. }
      split; [exact R'|]. constructor; cbn; auto; try (intros q j; now rewrite app_nil_r); try apply Nat.le_0_l; intros; contradiction.
    + rewrite crun_cons in Cr. destruct (cstep cap cl (e_col e p)) as [c1|] eqn:Cs; [|discriminate Cr]. cbn in Cr. injection Cr as ->.
      exists [Col p cl], {| e_col := U.upd (e_col e) p c'; e_net := U.upd (e_net e) p nn; e_prov := e_prov e; e_hist := e_hist e; e_from := e_from e |}.
      match goal with |- rel ?xx ?ee /\ _ => assert (R' : rel xx ee) end.
      { constructor; cbn [x_proc x_net x_prov e_col e_net e_prov]; auto; intro q; (destruct (Nat.eq_dec q p) as [->|Ne]; [rewrite ?upd_at|rewrite ?upd_other by exact Ne]); auto. }
      split; [exact R'|]. constructor; cbn [e_col].
      * cbn [erun estep]. rewrite Cs, Un. reflexivity.
      * intro q. rewrite steps_one. destruct (Nat.eqb_spec p q) as [<-|Ne]; [rewrite upd_at, crun_cons, Cs; reflexivity|rewrite upd_other by congruence; reflexivity].
      * intros q j. unfold traced. rewrite steps_one. destruct (Nat.eqb_spec p q) as [<-|Ne]; [rewrite upd_at; apply Em|rewrite upd_other by congruence; cbn; now rewrite app_nil_r].
      * intro q. rewrite steps_one. destruct (Nat.eqb_spec p q) as [<-|Ne]; [|exact Logic.I]. cbn [EndToEnd_spec.roomy]. split; [|destruct (C.cstep _ _ _); exact Logic.I].
        destruct cl as [|i y| | | | | | | |]; try exact Logic.I. intros t Ht. specialize (Em i). destruct (step_acc _ _ _ _ i Cs) as [X|(y' & t' & _ & Ht' & L & _)].
        -- exfalso. rewrite X, emissions_one, Nat.eqb_refl in Em. apply (f_equal (@length _)) in Em. rewrite app_length in Em. cbn in Em. lia.
        -- rewrite Ht in Ht'. injection Ht' as <-. exact L.
      * intros q tid [X|[]]. injection X as -> ->. cbn [cstep] in Cs. destruct (existsb _ _); [discriminate Cs|]. destruct (OMap_model.mfind _ _ _); [discriminate Cs|]. injection Cs as <-.
        refine (ring_owner _ _ _ {| th_tid := tid; th_phase := TRunning; th_buf := []; th_accepted := [] |} R' _). cbn [e_col]. rewrite upd_at. cbn. apply in_or_app. right. left. reflexivity.
      * intros z [X|[]]. discriminate X.
      * cbn [filter by_process]. destruct a as [| | | | | | | | | |a]; try (destruct (adds (Col p cl)); cbn; lia). cbn [wstep] in W. destruct (of_sender a) eqn:Of; [|discriminate W].
        unfold rings_step in W. destruct (rstep n a (w_rings (x_proc x p))) as [r|] eqn:Rs; [|discriminate W]. injection W as <-.
        change (adds (Col p cl)) with (adds (Col 0 cl)). rewrite (light_step _ _ _ _ _ _ Of Rs (B p) (A p) Sm Cs Em). cbn. lia.
  - destruct (reserved a) eqn:Re; [discriminate H|]. destruct (U.step a (x_net x p)) as [nn|] eqn:Us; [|discriminate H]. destruct (P.lrun _ (x_prov x)) as [q|] eqn:Pl; [|discriminate H]. injection H as <-.
    exists [Net p a]. eexists. split; [|constructor; [cbn [erun estep]; rewrite Re, N, Us, Q, Pl; reflexivity|..]]; cbn [e_col].
    + constructor; cbn [x_proc x_net x_prov e_col e_net e_prov]; auto. intro r. unfold U.upd. destruct (r =? p); auto.
    + intro r. reflexivity.
    + intros r j. cbn. now rewrite app_nil_r.
    + intro r. exact Logic.I.
    + intros r tid [X|[]]. discriminate X.
    + intros z [X|[]]. discriminate X.
    + auto.
  - assert (X : exists q, P.lstep a (x_prov x) = Some q /\ x' = {| x_proc := x_proc x; x_net := x_net x; x_prov := q |} /\ match a with P.LBegin _ => False | _ => True end).
    { destruct a; try discriminate H; (destruct (P.lstep _ (x_prov x)) as [q|]; [|discriminate H]; injection H as <-; eauto). }
    destruct X as (q & Ls & -> & Na). exists [Prv a]. eexists. split; [|constructor; [cbn [erun estep]; destruct a; try contradiction; rewrite Q, Ls; reflexivity|..]]; cbn [e_col].
    + constructor; cbn [x_proc x_net x_prov e_col e_net e_prov]; auto.
    + intro r. reflexivity.
    + intros r j. cbn. now rewrite app_nil_r.
    + intro r. exact Logic.I.
    + intros r tid [X|[]]. discriminate X.
    + intros z [X|[]]. injection X as <-. left. reflexivity.
    + auto.
Qed.

Lemma ids_mono p l x x' : xstep n pid what l x = Some x' -> forall tid, In tid (ids (w_switch (x_proc x p))) -> In tid (ids (w_switch (x_proc x' p))).
Proof.
  intros H tid Hi. destruct l as [q a|q a|a]; cbn [xstep] in H.
  - destruct (wstep n a (x_proc x q)) as [w|] eqn:W; [|discriminate H]. destruct (U.run _ _); [|discriminate H]. injection H as <-. cbn [x_proc].
    destruct (Nat.eq_dec p q) as [->|Ne]; [rewrite upd_at|rewrite upd_other by exact Ne; exact Hi].
    destruct (wstep_parts _ _ _ _ W) as (Sr & _). destruct (switching a) as [|b [|c r]] eqn:Sa; cbn in Sr; [injection Sr as <-; exact Hi| |destruct a; discriminate Sa].
    destruct (S.step b _) as [s'|] eqn:Sb; [|discriminate Sr]. injection Sr as <-. rewrite (ids_step _ _ _ Sb). apply in_or_app. auto.
  - destruct (reserved a); [discriminate H|]. destruct (U.step _ _); [|discriminate H]. destruct (P.lrun _ _); [|discriminate H]. injection H as <-. exact Hi.
  - destruct a; try discriminate H; (destruct (P.lstep _ (x_prov x)) as [q|]; [|discriminate H]; injection H as <-; exact Hi).
Qed.
Lemma ids_mono_run p ls : forall x x', xrun n pid what ls x = Some x' -> forall tid, In tid (ids (w_switch (x_proc x p))) -> In tid (ids (w_switch (x_proc x' p))).
Proof.
  induction ls as [|l ls IH]; intros x x' H tid Hi; cbn [xrun] in H; [injection H as <-; exact Hi|]. destruct (xstep n pid what l x) as [x1|] eqn:E; [|discriminate H].
  exact (IH _ _ H _ (ids_mono p _ _ _ E _ Hi)).
Qed.
(** The steps of one process, and what they are to its switches. *)
Lemma own_run p ls : forall x x', xrun n pid what ls x = Some x' -> wrun n (own_steps p ls) (x_proc x p) = Some (x_proc x' p).
Proof.
  induction ls as [|l ls IH]; intros x x' H; cbn [xrun] in H; [injection H as <-; reflexivity|]. destruct (xstep n pid what l x) as [x1|] eqn:E; [|discriminate H].
  specialize (IH _ _ H). destruct l as [q a|q a|a]; cbn [xstep] in E.
  - destruct (wstep n a (x_proc x q)) as [w|] eqn:W; [|discriminate E]. destruct (U.run _ _); [|discriminate E]. injection E as <-. cbn [x_proc] in IH. unfold own_steps. cbn [flat_map].
    destruct (Nat.eqb_spec q p) as [->|Ne]; [rewrite upd_at in IH; cbn [app wrun]; rewrite W; exact IH|rewrite upd_other in IH by congruence; exact IH].
  - destruct (reserved a); [discriminate E|]. destruct (U.step _ _); [|discriminate E]. destruct (P.lrun _ _); [|discriminate E]. injection E as <-. exact IH.
  - destruct a; try discriminate E; (destruct (P.lstep _ (x_prov x)) as [q|]; [|discriminate E]; injection E as <-; exact IH).
Qed.
Lemma switch_run ls : forall w w', wrun n ls w = Some w' -> S.run (flat_map switching ls) (w_switch w) = Some (w_switch w').
Proof.
  induction ls as [|l ls IH]; intros w w' H; cbn [wrun] in H; [injection H as <-; reflexivity|]. destruct (wstep n l w) as [w1|] eqn:E; [|discriminate H].
  cbn [flat_map]. rewrite SP.run_app. destruct (wstep_parts _ _ _ _ E) as (-> & _). exact (IH _ _ H).
Qed.
Lemma history_run p ls x x' : xrun n pid what ls x = Some x' -> S.run (history p ls) (switches x p) = Some (switches x' p).
Proof. intro H. exact (switch_run _ _ _ (own_run p _ _ _ H)). Qed.
Lemma started_proc ls : forall w w' tid, wrun n ls w = Some w' -> In tid (ids (w_switch w')) -> In tid (ids (w_switch w)) \/ In (WStart tid) ls.
Proof.
  induction ls as [|l ls IH]; intros w w' tid H Hi; cbn [wrun] in H; [injection H as <-; auto|]. destruct (wstep n l w) as [w1|] eqn:E; [|discriminate H].
  destruct (IH _ _ _ H Hi) as [X|X]; [|right; right; exact X]. destruct (wstep_parts _ _ _ _ E) as (Sr & _).
  assert (Y : ids (w_switch w1) = ids (w_switch w) ++ match l with WStart k => [k] | _ => [] end).
  { destruct l; cbn [switching S.run] in Sr; try (injection Sr as <-; now rewrite app_nil_r);
      (destruct (S.step _ _) as [s'|] eqn:St; [|discriminate Sr]; injection Sr as <-; rewrite (ids_step _ _ _ St); try reflexivity).
    cbn [wstep] in E. destruct l; try reflexivity. discriminate E. }
  rewrite Y in X. apply in_app_or in X. destruct X as [X|X]; [auto|]. right. left. destruct l; try contradiction. destruct X as [->|[]]. reflexivity.
Qed.
Lemma own_in p ls b : In b (own_steps p ls) -> In (XProc p b) ls.
Proof.
  induction ls as [|l ls IH]; [auto|]. intros Hb. unfold own_steps in Hb. cbn [flat_map] in Hb. apply in_app_or in Hb. destruct Hb as [Hb|Hb]; [left|right; auto].
  destruct l as [q a|q a|a]; try destruct Hb. destruct (Nat.eqb_spec q p) as [->|]; [destruct Hb as [->|[]]; reflexivity|destruct Hb].
Qed.
Lemma started p ls x tid : xrun n pid what ls x0 = Some x -> In tid (ids (switches x p)) -> In (XProc p (WStart tid)) ls.
Proof. intros H Hi. destruct (started_proc _ _ _ _ (own_run p _ _ _ H) Hi) as [[]|X]. now apply own_in. Qed.

Lemma roomy_app a : forall b s s1, EndToEnd_spec.roomy cap a s -> crun cap a s = Some s1 -> EndToEnd_spec.roomy cap b s1 -> EndToEnd_spec.roomy cap (a ++ b) s.
Proof.
  induction a as [|l a IH]; intros b s s1 A H B; [injection H as <-; exact B|]. cbn [app EndToEnd_spec.roomy] in A |- *. destruct A as (A1 & A2). split; [exact A1|].
  rewrite crun_cons in H. destruct (cstep cap l s) as [s'|]; [|discriminate H]. exact (IH _ _ _ A2 H B).
Qed.
Lemma xrun_app a : forall b s, xrun n pid what (a ++ b) s = match xrun n pid what a s with Some s1 => xrun n pid what b s1 | None => None end.
Proof. induction a as [|l a IH]; cbn [app xrun]; intros b s; [reflexivity|]. destruct (xstep n pid what l s); auto. Qed.

Lemma xrun_sim ls : forall x e x', rel x e -> xrun n pid what ls x = Some x' -> exists els e', rel x' e' /\ follows ls els x' e e'.
Proof.
  induction ls as [|l ls IH]; intros x e x' R H; cbn [xrun] in H.
  - injection H as <-. exists [], e. split; [exact R|]. constructor; cbn; auto; try (intros q j; now rewrite app_nil_r); try apply Nat.le_0_l; intros; contradiction.
  - destruct (xstep n pid what l x) as [x1|] eqn:E; [|discriminate H]. destruct (xstep_sim _ _ _ _ R E) as (a & e1 & R1 & [A1 A2 A3 A4 A5 A6 A7]).
    destruct (IH _ _ _ R1 H) as (b & e2 & R2 & [B1 B2 B3 B4 B5 B6 B7]). exists (a ++ b), e2. split; [exact R2|]. constructor.
    + rewrite EP.erun_app, A1. exact B1.
    + intro p. rewrite EP.steps_app, crun_app, A2. exact (B2 p).
    + intros p j. rewrite B3, A3, EP.traced_app. now rewrite app_assoc.
    + intro p. rewrite EP.steps_app. exact (roomy_app _ _ _ _ (A4 p) (A2 p) (B4 p)).
    + intros p tid X. apply in_app_or in X. destruct X as [X|X]; [|auto]. exact (ids_mono_run p _ _ _ H _ (A5 _ _ X)).
    + intros z X. apply in_app_or in X. destruct X as [X|X]; [left; destruct (A6 _ X) as [<-|[]]; reflexivity|right; auto].
    + rewrite filter_app, app_length. change (l :: ls) with ([l] ++ ls). rewrite filter_app, app_length. lia.
Qed.

Lemma rel0 : rel x0 e0.
Proof.
  constructor; cbn; auto.
  - intros _. apply (sim0 true).
  - intros _. apply rinv0.
  - intros _. apply (cinv0 true).
  - intros _. exact winv0.
Qed.
End Sim.
