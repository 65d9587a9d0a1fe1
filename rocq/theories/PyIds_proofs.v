(** Ids and names of trace contexts. *)
From Coq Require Import String List Arith NArith Ascii Bool Lia.
Import ListNotations.
From Verif Require Import OMap_model OMap_proofs Names_proofs UnixSystem_model Json_model PyIds_model PyIds_spec PySwitch_proofs.
Local Open Scope nat_scope.

Section Proofs.
Variable prefix : nat -> bytes.
Notation step := (step prefix). Notation run := (run prefix). Notation full := (full prefix).

Lemma run_snoc ls l s s' es : run (ls ++ [l]) s = Some (s', es) ->
  exists s1 es1 e, run ls s = Some (s1, es1) /\ step l s1 = Some (s', e) /\ es = es1 ++ e.
Proof.
  revert s es. induction ls as [|a ls IH]; intros s es; cbn [app PyIds_model.run].
  - destruct (step l s) as [[s1 e]|] eqn:E; [|discriminate]. intros H. injection H as <- <-. exists s, [], e. rewrite app_nil_r. auto.
  - destruct (step a s) as [[s1 e]|]; [|discriminate]. destruct (run (ls ++ [l]) s1) as [[s2 e2]|] eqn:E; [|discriminate]. intros H. injection H as <- <-.
    destruct (IH _ _ E) as (s3 & e3 & e4 & H1 & H2 & ->). rewrite H1. exists s3, (e ++ e3), e4. rewrite app_assoc. auto.
Qed.
Lemma made_app a b : made (a ++ b) = made a ++ made b.
Proof. unfold made. apply flat_map_app. Qed.

(** The tables are sorted. *)
Definition sorted (s : state) : Prop := ordered N.ltb (i_names s) /\ forall h, ordered str_ltb (i_ctx s h).
Lemma sorted_step l s s' e : sorted s -> step l s = Some (s', e) -> sorted s'.
Proof.
  intros [S1 S2] E. destruct l as [t h nm|t nm o|t|t|t]; cbn [PyIds_model.step] in E; destruct (i_pc s t) as [|h' n'|h' n' i|h' n' i] eqn:Ep; try discriminate.
  - destruct (is_attribute nm); [|destruct (mfind str_ltb nm (i_ctx s h))]; injection E as <- <-; split; auto.
  - injection E as <- <-. split; auto.
  - injection E as <- <-. split; auto.
  - destruct (i <? 4294967296)%N; injection E as <- <-; split; auto. now apply (ordered_insert _ N_order).
  - injection E as <- <-. split; [exact S1|]. cbn [i_ctx]. intros k. destruct h' as [h'|]; [|auto]. destruct (Nat.eq_dec k h') as [->|Hk]; [rewrite upd_same|rewrite upd_other by auto; auto].
    now apply (ordered_insert _ str_order).
Qed.
Lemma sorted_run ls s es : run ls start = Some (s, es) -> sorted s.
Proof.
  revert s es. induction ls as [|l ls IH] using rev_ind; intros s es E.
  - injection E as <- <-. split; [|intros h]; apply ordered_nil.
  - apply run_snoc in E as (s1 & es1 & e & E1 & E2 & ->). eapply sorted_step; eauto.
Qed.

(** Numbers taken and not yet registered, those of contexts made. *)
Definition held (p : pc) : option N := match p with Taken _ _ id => Some id | _ => None end.
Record inv (s : state) (es : list event) : Prop := {
  iv_fresh : forall id nm, In (id, nm) (made es) -> (id < i_next s)%N;
  iv_held : forall t id, held (i_pc s t) = Some id -> (id < i_next s)%N /\ ~ In id (map fst (made es));
  iv_apart : forall t u id, held (i_pc s t) = Some id -> held (i_pc s u) = Some id -> t = u;
  iv_nodup : NoDup (map fst (made es));
  iv_names : forall id nm, In (id, nm) (made es) -> mfind N.ltb id (i_names s) = Some nm;
  iv_named : forall t h nm id, i_pc s t = Named h nm id -> In (id, full h nm) (made es);
  iv_ctx : forall h nm id, mfind str_ltb nm (i_ctx s h) = Some id -> In (id, full (Some h) nm) (made es);
  iv_got : forall t h nm id, In (Got t h nm id) es -> In (id, full h nm) (made es)
}.
Lemma inv0 : inv start [].
Proof. constructor; cbn; try (intros; contradiction); try discriminate; constructor. Qed.

Ltac tu t u := destruct (Nat.eq_dec u t) as [->|?]; [rewrite upd_same in *|rewrite upd_other in * by auto].

Lemma inv_step l s s' es e : no_id l -> sorted s -> inv s es -> step l s = Some (s', e) -> inv s' (es ++ e).
Proof.
  intros Hl [On Oc] [I1 I2 I3 I4 I5 I6 I7 I8] E. destruct l as [t h nm|t nm o|t|t|t]; cbn [PyIds_model.step] in E.
  - destruct (i_pc s t) eqn:Ep; try discriminate. destruct (is_attribute nm).
    { injection E as <- <-. constructor; rewrite ?made_app; cbn [made flat_map]; rewrite ?app_nil_r; auto. intros u k n id H. apply in_app_or in H as [H|[H|[]]]; [eauto|discriminate]. }
    destruct (mfind str_ltb nm (i_ctx s h)) as [id|] eqn:Ef.
    { injection E as <- <-. constructor; rewrite ?made_app; cbn [made flat_map]; rewrite ?app_nil_r; auto. intros u k n i H. apply in_app_or in H as [H|[H|[]]]; [eauto|]. injection H as <- <- <- <-. auto. }
    injection E as <- <-. rewrite app_nil_r. constructor; cbn [i_next i_names i_ctx i_pc]; auto.
    + intros u id H. tu t u; [discriminate|eauto].
    + intros u v id H1 H2. tu t u; [discriminate|]. tu t v; [discriminate|eauto].
    + intros u k n id H. tu t u; [discriminate|eauto].
  - destruct (i_pc s t) eqn:Ep; try discriminate. destruct o as [id|]; [destruct Hl|]. injection E as <- <-. rewrite app_nil_r. constructor; cbn [i_next i_names i_ctx i_pc]; auto.
    + intros u id H. tu t u; [discriminate|eauto].
    + intros u v id H1 H2. tu t u; [discriminate|]. tu t v; [discriminate|eauto].
    + intros u k n id H. tu t u; [discriminate|eauto].
  - destruct (i_pc s t) eqn:Ep; try discriminate. injection E as <- <-. rewrite app_nil_r. constructor; cbn [i_next i_names i_ctx i_pc]; auto.
    + intros id n H. apply I1 in H. lia.
    + intros u id H. tu t u.
      * cbn in H. injection H as <-. split; [lia|]. intros Hin. apply in_map_iff in Hin as ([i n] & Ei & Hin). apply I1 in Hin. cbn in Ei. lia.
      * apply I2 in H as [H1 H2]. split; [lia|exact H2].
    + intros u v id H1 H2. tu t u; tu t v; auto.
      * cbn in H1. injection H1 as <-. apply I2 in H2 as [H2 _]. lia.
      * cbn in H2. injection H2 as <-. apply I2 in H1 as [H1 _]. lia.
      * eauto.
    + intros u k n id H. tu t u; [discriminate|eauto].
  - destruct (i_pc s t) as [| |h nm id|] eqn:Ep; try discriminate. assert (Hh : held (i_pc s t) = Some id) by now rewrite Ep. destruct (I2 t id Hh) as [B1 B2].
    destruct (id <? 4294967296)%N.
    + injection E as <- <-. assert (EM : made (es ++ [Made id (full h nm)]) = made es ++ [(id, full h nm)]) by (rewrite made_app; reflexivity).
      constructor; cbn [i_next i_names i_ctx i_pc]; rewrite ?EM.
      * intros i n H. apply in_app_or in H as [H|[H|[]]]; [eauto|]. now injection H as <- <-.
      * intros u i H. tu t u; [discriminate|]. destruct (I2 u i H) as [C1 C2]. split; [exact C1|]. rewrite map_app. intros Hin. apply in_app_or in Hin as [Hin|[Hin|[]]]; [contradiction|]. cbn in Hin. subst i. apply n. now apply (I3 u t id).
      * intros u v i H1 H2. tu t u; [discriminate|]. tu t v; [discriminate|eauto].
      * rewrite map_app. apply UnixSystem_proofs.NoDup_snoc; auto.
      * intros i n H. apply in_app_or in H as [H|[H|[]]].
        -- rewrite (find_insert_other N.ltb N_order); [eauto|exact On|]. intros ->. apply B2. apply in_map_iff. now exists (id, n).
        -- injection H as <- <-. apply (find_insert_same N.ltb N_order).
      * intros u k n i H. tu t u; [injection H as <- <- <-; apply in_or_app; right; now left|apply in_or_app; left; eauto].
      * intros k n i H. apply in_or_app. left. eauto.
      * intros u k n i H. apply in_app_or in H as [H|[H|[]]]; [apply in_or_app; left; eauto|discriminate].
    + injection E as <- <-. constructor; cbn [i_next i_names i_ctx i_pc]; rewrite ?made_app; cbn [made flat_map]; rewrite ?app_nil_r; auto.
      * intros u i H. tu t u; [discriminate|eauto].
      * intros u v i H1 H2. tu t u; [discriminate|]. tu t v; [discriminate|eauto].
      * intros u k n i H. tu t u; [discriminate|eauto].
      * intros u k n i H. apply in_app_or in H as [H|[H|[]]]; [eauto|discriminate].
  - destruct (i_pc s t) as [| | |h nm id] eqn:Ep; try discriminate. injection E as <- <-. pose proof (I6 t h nm id Ep) as Hm.
    constructor; cbn [i_next i_names i_ctx i_pc]; rewrite ?made_app; cbn [made flat_map]; rewrite ?app_nil_r; auto.
    + intros u i H. tu t u; [discriminate|eauto].
    + intros u v i H1 H2. tu t u; [discriminate|]. tu t v; [discriminate|eauto].
    + intros u k n i H. tu t u; [discriminate|eauto].
    + intros k n i H. destruct h as [h|]; [|eauto]. destruct (Nat.eq_dec k h) as [->|Hk]; [rewrite upd_same in H|rewrite upd_other in H by auto; eauto].
      destruct (list_eq_dec ascii_dec n nm) as [->|Hn].
      * rewrite (find_insert_same str_ltb str_order) in H. now injection H as <-.
      * rewrite (find_insert_other str_ltb str_order) in H by auto. eauto.
    + intros u k n i H. apply in_app_or in H as [H|[H|[]]]; [eauto|]. now injection H as <- <- <- <-.
Qed.
Lemma inv_run ls s es : Forall no_id ls -> run ls start = Some (s, es) -> inv s es.
Proof.
  revert s es. induction ls as [|l ls IH] using rev_ind; intros s es HF E.
  - injection E as <- <-. apply inv0.
  - apply Forall_app in HF as [HF Hl]. apply Forall_cons_iff in Hl as [Hl _]. apply run_snoc in E as (s1 & es1 & e & E1 & E2 & ->). eapply inv_step; eauto using sorted_run.
Qed.

(** C48: each context has an id of its own, and the names are right. *)
Theorem own_ids ls s es : Forall no_id ls -> run ls start = Some (s, es) ->
  NoDup (map fst (made es)) /\ (forall id nm, In (id, nm) (made es) -> mfind N.ltb id (i_names s) = Some nm) /\
  (forall t h nm id, In (Got t h nm id) es -> In (id, full h nm) (made es)).
Proof. intros HF E. destruct (inv_run ls s es HF E). auto. Qed.

(** ** One name, one context *)
Record single (h t : nat) (s : state) (es : list event) : Prop := {
  sg_got : forall u nm id, In (Got u (Some h) nm id) es -> mfind str_ltb nm (i_ctx s h) = Some id;
  sg_who : forall u nm id, i_pc s u = Making (Some h) nm \/ i_pc s u = Taken (Some h) nm id \/ i_pc s u = Named (Some h) nm id -> u = t /\ mfind str_ltb nm (i_ctx s h) = None
}.
Lemma single_step h t l s s' es e : one_thread h t l -> sorted s -> single h t s es -> step l s = Some (s', e) -> single h t s' (es ++ e).
Proof.
  intros Hl [On Oc] [G W] E. destruct l as [u k nm|u nm o|u|u|u]; cbn [PyIds_model.step] in E.
  - destruct (i_pc s u) eqn:Ep; try discriminate. destruct (is_attribute nm).
    { injection E as <- <-. constructor; auto. intros v n i H. apply in_app_or in H as [H|[H|[]]]; [eauto|discriminate]. }
    destruct (mfind str_ltb nm (i_ctx s k)) as [id|] eqn:Ef.
    { injection E as <- <-. constructor; auto. intros v n i H. apply in_app_or in H as [H|[H|[]]]; [eauto|]. injection H as <- <- <- <-. exact Ef. }
    injection E as <- <-. rewrite app_nil_r. constructor; cbn [i_next i_names i_ctx i_pc]; auto.
    intros v n i H. tu u v; [|eauto]. destruct H as [H|[H|H]]; try discriminate. injection H as <- <-. cbn in Hl. split; auto.
  - destruct (i_pc s u) eqn:Ep; try discriminate. injection E as <- <-. rewrite app_nil_r. constructor; cbn [i_next i_names i_ctx i_pc]; auto.
    intros v n i H. tu u v; [|eauto]. destruct o; destruct H as [H|[H|H]]; discriminate.
  - destruct (i_pc s u) as [|k nm| |] eqn:Ep; try discriminate. injection E as <- <-. rewrite app_nil_r. constructor; cbn [i_next i_names i_ctx i_pc]; auto.
    intros v n i H. tu u v; [|eauto]. destruct H as [H|[H|H]]; try discriminate. injection H as -> -> <-. apply (W u n 0%N). auto.
  - destruct (i_pc s u) as [| |k nm id|] eqn:Ep; try discriminate. destruct (id <? 4294967296)%N; injection E as <- <-; (constructor; cbn [i_next i_names i_ctx i_pc];
      [intros v n i H; apply in_app_or in H as [H|[H|[]]]; [eauto|discriminate]|]).
    + intros v n i H. tu u v; [|eauto]. destruct H as [H|[H|H]]; try discriminate. injection H as -> -> ->. apply (W u n i). auto.
    + intros v n i H. tu u v; [|eauto]. destruct H as [H|[H|H]]; discriminate.
  - destruct (i_pc s u) as [| | |k nm id] eqn:Ep; try discriminate. injection E as <- <-. constructor; cbn [i_next i_names i_ctx i_pc].
    + intros v n i H. apply in_app_or in H as [H|[H|[]]].
      * specialize (G v n i H). destruct k as [k|]; [|exact G]. destruct (Nat.eq_dec h k) as [<-|Hk]; [rewrite upd_same|rewrite upd_other by auto; exact G].
        destruct (W u nm id) as [_ Hn]; [auto|]. rewrite (find_insert_other str_ltb str_order); [exact G|apply Oc|]. intros ->. congruence.
      * injection H as <- -> <- <-. rewrite upd_same. apply (find_insert_same str_ltb str_order).
    + intros v n i H. tu u v; [destruct H as [H|[H|H]]; discriminate|]. destruct (W v n i H) as [-> Hn]. split; [reflexivity|]. destruct k as [k|]; [|exact Hn].
      destruct (Nat.eq_dec h k) as [<-|Hk]; [|rewrite upd_other by auto; exact Hn]. destruct (W u nm id) as [-> _]; [auto|]. congruence.
Qed.
Theorem same_id h t ls s es u1 u2 nm id1 id2 : Forall (one_thread h t) ls -> run ls start = Some (s, es) ->
  In (Got u1 (Some h) nm id1) es -> In (Got u2 (Some h) nm id2) es -> id1 = id2.
Proof.
  intros HF E. assert (HS : single h t s es).
  { revert s es HF E. induction ls as [|l ls IH] using rev_ind; intros s es HF E.
    - injection E as <- <-. constructor; cbn; [intros; contradiction|]. intros u n i [H|[H|H]]; discriminate.
    - apply Forall_app in HF as [HF Hl]. apply Forall_cons_iff in Hl as [Hl _]. apply run_snoc in E as (s1 & es1 & e & E1 & E2 & ->). eapply single_step; eauto using sorted_run. }
  intros H1 H2. apply (sg_got _ _ _ _ HS) in H1, H2. congruence.
Qed.
End Proofs.
