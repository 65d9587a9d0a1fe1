From Coq Require Import List Arith Bool Lia.
Import ListNotations.
From Verif Require Import Recorder_model Recorder_spec.

Section P.
Context {E T : Type} (render : list E -> option T).
Notation rop := (rop E). Notation reffect := (reffect T). Notation rrun := (rrun render). Notation life := (life render). Notation rstep := (rstep render).
Implicit Types (os : list rop) (es : list reffect) (r : recorder).

Definition fbind (f : rfinal (T := T)) (k : recorder -> list reffect -> bool -> rfinal (T := T)) : rfinal (T := T) :=
  match f with FAlive r es b => k r es b | _ => f end.
Lemma rrun_app a b r es t : rrun (a ++ b) r es t = fbind (rrun a r es t) (fun r' es' t' => rrun b r' es' t').
Proof.
  revert r es t. induction a as [|o a IH]; intros r es t; [reflexivity|]. cbn. destruct (rstep o r); auto; apply IH.
Qed.
Lemma life_app a b : life (a ++ b) = fbind (life a) (fun r es t => rrun b r es t).
Proof. apply rrun_app. Qed.
Lemma started_app (a b : list rop) st : started_after (a ++ b) st = started_after b (started_after a st).
Proof. revert st. induction a as [|[] a IH]; intro st; cbn; auto. Qed.
Lemma dump_app (a b : list rop) f : dump_file (a ++ b) f = dump_file b (dump_file a f).
Proof. revert f. induction a as [|[] a IH]; intro f; cbn; auto. Qed.
Lemma providers_app (a b : list rop) : providers (a ++ b) = providers a + providers b.
Proof. unfold providers. rewrite filter_app, app_length. reflexivity. Qed.
Lemma alive_app (a b : list rop) : alive_ops (a ++ b) <-> alive_ops a /\ alive_ops b.
Proof. unfold alive_ops. split; [intro H; split; intros o Ho; apply H, in_or_app; auto|]. intros [H1 H2] o Ho. apply in_app_or in Ho as [Ho|Ho]; auto. Qed.

(** As long as it is not destroyed, a recorder stays alive and knows its state; the thread is joinable exactly while running. *)
Lemma life_alive os : alive_ops os -> exists r es t, life os = FAlive r es t
  /\ r_running r = started os /\ r_joinable r = started os /\ r_providers r = providers os /\ r_file r = dump_file os None.
Proof.
  induction os as [|o os IH] using rev_ind; intro Ha.
  - exists recorder0, [], false. repeat split.
  - apply alive_app in Ha as [Ha Ho]. destruct (IH Ha) as (r & es & t & E0 & Hr & Hj & Hp & Hf). rewrite life_app, E0. cbn [fbind Recorder_model.rrun].
    rewrite providers_app, dump_app. unfold started in *. rewrite started_app. destruct o; cbn [Recorder_model.rstep started_after dump_file providers filter length].
    + eexists _, _, _. split; [reflexivity|]. cbn. rewrite Hr, Hj, Hp. repeat split; auto. unfold providers; cbn. lia.
    + unfold start. rewrite Hr, Hj. destruct (started_after os false).
      * eexists _, _, _. split; [reflexivity|]. rewrite Hr, Hj, Hp. repeat split; auto.
      * eexists _, _, _. split; [reflexivity|]. cbn. rewrite Hp. repeat split; auto.
    + unfold stop. destruct (r_joinable r); eexists _, _, _; (split; [reflexivity|]); cbn; rewrite Hp; repeat split; auto.
    + eexists _, _, _. split; [reflexivity|]. rewrite Hr, Hj, Hp. repeat split; auto.
    + eexists _, _, _. split; [reflexivity|]. rewrite Hr, Hj, Hp. repeat split; auto.
    + eexists _, _, _. split; [reflexivity|]. cbn. rewrite Hr, Hj, Hp. repeat split; auto.
    + destruct (collect render r events) as [xs [x|]]; eexists _, _, _; (split; [reflexivity|]); rewrite Hr, Hj, Hp; repeat split; auto.
    + destruct (write_file render r file events) as [xs [|]]; eexists _, _, _; (split; [reflexivity|]); rewrite Hr, Hj, Hp; repeat split; auto.
    + specialize (Ho _ (or_introl eq_refl)). discriminate.
Qed.

Lemma paired_snoc os o : well_paired (os ++ [o]) <-> well_paired os /\ (o = RStop -> started os = true).
Proof.
  unfold well_paired. split.
  - intro H. split.
    + intros a b ->. apply (H a (b ++ [o])). rewrite <- app_assoc. reflexivity.
    + intros ->. apply (H os []). reflexivity.
  - intros [H1 H2] a b Eq. destruct b as [|x b _] using rev_ind.
    + apply app_inj_tail in Eq as [-> ->]. auto.
    + rewrite app_comm_cons, app_assoc in Eq. apply app_inj_tail in Eq as [-> ->]. eapply H1. reflexivity.
Qed.

Hypothesis Hrender : forall l, render l <> None.

Lemma safe_iff os : alive_ops os -> safe (life os) <-> well_paired os.
Proof.
  induction os as [|o os IH] using rev_ind; intro Ha.
  - split; [|constructor]. intros _ a b Eq. destruct a; discriminate.
  - apply alive_app in Ha as [Ha Ho]. destruct (life_alive os Ha) as (r & es & t & E0 & Hr & Hj & Hp & Hf).
    specialize (IH Ha). rewrite paired_snoc, <- IH, life_app, E0. cbn [fbind Recorder_model.rrun].
    assert (Hs : forall r' (xs : list reffect), safe (FAlive r' xs t) <-> safe (FAlive r es t)) by (intros; destruct t; reflexivity).
    destruct o; cbn [Recorder_model.rstep]; try (rewrite Hs; split; [intro; split; [assumption|discriminate]|tauto]).
    + unfold start. rewrite Hr, Hj. destruct (started os); rewrite Hs; (split; [intro; split; [assumption|discriminate]|tauto]).
    + unfold stop. rewrite Hj. destruct (started os); [rewrite Hs; tauto|]. split; [cbn; contradiction|]. intros [_ H]. specialize (H eq_refl). discriminate.
    + unfold collect. specialize (Hrender (concat (map events (r_sources r)))). destruct (render _); [|congruence].
      rewrite Hs. split; [intro; split; [assumption|discriminate]|tauto].
    + unfold write_file, collect. specialize (Hrender (concat (map events (r_sources r)))). destruct (render _); [|congruence].
      rewrite Hs. split; [intro; split; [assumption|discriminate]|tauto].
    + specialize (Ho _ (or_introl eq_refl)). discriminate.
Qed.
(** The destructor ends the process unless the recorder is running. *)
Lemma destroy_iff os ev : alive_ops os -> life (os ++ [RDestroy ev]) <> FTerminated <-> started os = true.
Proof.
  intro Ha. destruct (life_alive os Ha) as (r & es & t & E0 & Hr & Hj & Hp & Hf). rewrite life_app, E0. cbn [fbind Recorder_model.rrun Recorder_model.rstep].
  unfold stop. rewrite Hj. destruct (started os); [|split; congruence]. split; [reflexivity|]. intros _. destruct (r_file r) as [f|]; [|discriminate].
  unfold write_file, collect. cbn [r_sources with_run]. specialize (Hrender (concat (map ev (r_sources r)))). destruct (render _); [discriminate|congruence].
Qed.
Lemma whole_life_iff os ev : alive_ops os -> safe (life (os ++ [RDestroy ev])) <-> well_paired os /\ started os = true.
Proof.
  intro Ha. rewrite <- (safe_iff os Ha), <- (destroy_iff os ev Ha). destruct (life_alive os Ha) as (r & es & t & E0 & Hr & Hj & Hp & Hf). rewrite life_app, E0.
  cbn [fbind Recorder_model.rrun Recorder_model.rstep]. unfold stop. rewrite Hj.
  destruct (started os); [|cbn; split; [contradiction|intros [_ H]; congruence]].
  destruct (r_file r) as [f|].
  - unfold write_file, collect. cbn [r_sources with_run]. specialize (Hrender (concat (map ev (r_sources r)))). destruct (render _); [|congruence].
    destruct t; cbn; split; try tauto. intro H. split; [exact H|discriminate].
  - destruct t; cbn; split; try tauto. intro H. split; [exact H|discriminate].
Qed.
Lemma start_twice os : alive_ops os -> started os = true -> life (os ++ [RStart]) = life os.
Proof.
  intros Ha Hst. destruct (life_alive os Ha) as (r & es & t & E0 & Hr & _). rewrite life_app, E0. cbn. unfold start. rewrite Hr, Hst. rewrite app_nil_r. reflexivity.
Qed.

Lemma made_bound os : alive_ops os -> match life os with FAlive r es _ => forall s, In s (map fst (makes es)) -> s < r_made r | _ => True end.
Proof.
  induction os as [|o os IH] using rev_ind; intro Ha; [cbn; contradiction|]. apply alive_app in Ha as [Ha Ho]. specialize (IH Ha).
  destruct (life_alive os Ha) as (r & es & t & E0 & Hr & Hj & Hp & Hf). rewrite life_app. rewrite E0 in *. cbn [fbind Recorder_model.rrun].
  assert (Mapp : forall a b : list reffect, map fst (makes (a ++ b)) = map fst (makes a) ++ map fst (makes b)) by (intros; unfold makes; rewrite flat_map_app, map_app; reflexivity).
  assert (Ms : forall (l : list nat) (f : nat -> reffect), (forall x, makes [f x] = []) -> makes (map f l) = []).
  { intros l f Hf'. induction l as [|x l IHl]; [reflexivity|]. cbn [map]. change (f x :: map f l) with ([f x] ++ map f l). unfold makes in *. rewrite flat_map_app, Hf', IHl. reflexivity. }
  assert (Ms2 : forall (l m : list nat) (x : list reffect), makes x = [] -> makes ((map XStop l ++ map XFinish m) ++ x) = []).
  { intros l m x Hx. assert (Ma : forall a b : list reffect, makes (a ++ b) = makes a ++ makes b) by (intros; apply flat_map_app).
    rewrite !Ma, !Ms, Hx by reflexivity. reflexivity. }
  assert (G : forall xs, makes xs = [] -> forall s, In s (map fst (makes (es ++ xs))) -> s < r_made r).
  { intros xs Hx s Hs. rewrite Mapp, Hx, app_nil_r in Hs. apply IH. exact Hs. }
  destruct o; cbn [Recorder_model.rstep].
  - apply G. reflexivity.
  - unfold start. rewrite Hr, Hj. destruct (started os); [apply G; reflexivity|]. cbn [r_made with_run]. intros s Hs. rewrite Mapp in Hs.
    apply in_app_or in Hs as [Hs|Hs]; [apply IH in Hs; lia|]. apply in_map_iff in Hs as ([s' p] & <- & Hs). cbn [fst]. unfold makes in Hs. apply in_flat_map in Hs as (x & Hx & Hs).
    apply in_map_iff in Hx as (q & <- & Hq). destruct Hs as [Hs|[]]. injection Hs as <- <-. apply in_seq in Hq. lia.
  - unfold stop. destruct (r_joinable r); apply G; reflexivity.
  - apply G. apply Ms. reflexivity.
  - apply G. apply Ms. reflexivity.
  - apply G. reflexivity.
  - unfold collect. destruct (render _); [apply G, Ms2; reflexivity|]. rewrite <- (app_nil_r (map XStop _ ++ _)). apply G, Ms2. reflexivity.
  - unfold write_file, collect. destruct (render _); [apply G, Ms2; reflexivity|]. rewrite <- (app_nil_r (map XStop _ ++ _)). apply G, Ms2. reflexivity.
  - specialize (Ho _ (or_introl eq_refl)). discriminate.
Qed.
(** Which sources it works with. *)
Lemma keeps_sources r os : alive_ops os -> (forall a b, os = a ++ RStop :: b -> False) -> r_running r = true -> forall es t,
  exists r' xs t', rrun os r es t = FAlive r' (es ++ xs) t' /\ r_running r' = true /\ r_sources r' = r_sources r /\ makes xs = [].
Proof.
  revert r. induction os as [|o os IH]; intros r Ha Hn Hr es t.
  - exists r, [], t. rewrite app_nil_r. repeat split; auto.
  - assert (Ha' : alive_ops os) by (intros x Hx; apply Ha; right; exact Hx).
    assert (Hn' : forall a b, os = a ++ RStop :: b -> False) by (intros a b ->; apply (Hn (o :: a) b); reflexivity).
    assert (G : forall r1 xs1 t1, r_running r1 = true -> r_sources r1 = r_sources r -> makes xs1 = [] ->
       exists r' xs t', rrun os r1 (es ++ xs1) t1 = FAlive r' (es ++ xs) t' /\ r_running r' = true /\ r_sources r' = r_sources r /\ makes xs = []).
    { intros r1 xs1 t1 H1 H2 H3. destruct (IH r1 Ha' Hn' H1 (es ++ xs1) t1) as (r' & xs & t' & Eq & G1 & G2 & G3).
      exists r', (xs1 ++ xs), t'. rewrite app_assoc. repeat split; auto; [congruence|]. unfold makes in *. rewrite flat_map_app, H3, G3. reflexivity. }
    assert (Ms : forall (l : list nat) (f : nat -> reffect), (forall x, makes [f x] = []) -> makes (map f l) = []).
    { intros l f Hf. induction l as [|x l IHl]; [reflexivity|]. cbn [map]. change (f x :: map f l) with ([f x] ++ map f l). unfold makes in *. rewrite flat_map_app, Hf, IHl. reflexivity. }
    assert (Mapp : forall a b : list reffect, makes (a ++ b) = makes a ++ makes b) by (intros; apply flat_map_app).
    cbn [Recorder_model.rrun]. destruct o; cbn [Recorder_model.rstep].
    + apply G; auto.
    + unfold start. rewrite Hr. apply G; auto.
    + exfalso. apply (Hn [] os). reflexivity.
    + apply G; auto; apply Ms; reflexivity.
    + apply G; auto; apply Ms; reflexivity.
    + apply G; auto.
    + unfold collect. destruct (render _); apply G; auto; rewrite ?Mapp, !Ms by reflexivity; reflexivity.
    + unfold write_file, collect. destruct (render _); apply G; auto; rewrite ?Mapp, !Ms by reflexivity; reflexivity.
    + specialize (Ha _ (or_introl eq_refl)). discriminate.
Qed.
Lemma start_set a b : alive_ops (a ++ b) -> started a = false -> (forall x y, b = x ++ RStop :: y -> False) ->
  exists r0 es t0 xs srcs t, life a = FAlive r0 es t0 /\ makes xs = combine srcs (seq 0 (providers a)) /\ length srcs = providers a /\ NoDup srcs
    /\ (forall s, In s srcs -> ~ In s (map fst (makes es)))
    /\ exists r, life (a ++ RStart :: b) = FAlive r (es ++ xs) t /\ r_sources r = srcs /\ r_running r = true.
Proof.
  intros Ha Hst Hn. apply alive_app in Ha as [Ha Hb]. destruct (life_alive a Ha) as (r0 & es & t0 & E0 & Hr & Hj & Hp & Hf).
  set (srcs := seq (r_made r0) (r_providers r0)). set (mk := map (fun p => XMake (r_made r0 + p) p : reffect) (seq 0 (r_providers r0))).
  set (r1 := with_run r0 srcs (r_made r0 + r_providers r0) true true).
  destruct (keeps_sources r1 b Hb Hn eq_refl (es ++ mk) t0) as (r2 & xs & t2 & E2 & Hr2 & Hs2 & Hm2).
  exists r0, es, t0, (mk ++ xs), srcs, t2. split; [exact E0|].
  assert (Hmk : makes mk = combine srcs (seq 0 (providers a))).
  { unfold mk, srcs. rewrite <- Hp. clear. generalize (r_providers r0) as n, (r_made r0) as m. intros n m.
    assert (G : forall k, makes (map (fun p => XMake (m + p) p : reffect) (seq k n)) = combine (seq (m + k) n) (seq k n)).
    { induction n as [|n IH]; intro k; [reflexivity|]. cbn [seq map combine]. rewrite <- Nat.add_succ_r, <- IH. reflexivity. }
    rewrite (G 0), Nat.add_0_r. reflexivity. }
  split; [unfold makes in *; rewrite flat_map_app, Hm2, app_nil_r; exact Hmk|].
  split; [unfold srcs; rewrite seq_length; exact Hp|]. split; [apply seq_NoDup|]. split.
  - intros s Hs Hin. apply in_seq in Hs. pose proof (made_bound a Ha) as Hb2. rewrite E0 in Hb2. specialize (Hb2 s Hin). lia.
  - exists r2. split; [|split; [exact Hs2|exact Hr2]]. rewrite life_app, E0. cbn [fbind Recorder_model.rrun Recorder_model.rstep]. unfold start. rewrite Hr, Hj, Hst.
    fold srcs mk r1. rewrite E2. rewrite app_assoc. reflexivity.
Qed.
(** What the interval calls reach. *)
Lemma interval_reaches os r es t : life os = FAlive r es t ->
  life (os ++ [RStartInterval]) = FAlive r (es ++ map XStart (r_sources r)) t
  /\ life (os ++ [RStopInterval]) = FAlive r (es ++ map XStop (r_sources r)) t
  /\ forall ev x, render (concat (map ev (r_sources r))) = Some x ->
     life (os ++ [RCollect ev]) = FAlive r (es ++ (map XStop (r_sources r) ++ map XFinish (r_sources r)) ++ [XText x]) t
     /\ forall f, life (os ++ [RWrite f ev]) = FAlive r (es ++ (map XStop (r_sources r) ++ map XFinish (r_sources r)) ++ [XFile f x]) t.
Proof.
  intro H. rewrite !life_app, H. split; [reflexivity|]. split; [reflexivity|]. intros ev x Hx. rewrite life_app, H. split; [|intro f; rewrite life_app, H];
    cbn [fbind Recorder_model.rrun Recorder_model.rstep]; unfold write_file, collect; rewrite Hx; reflexivity.
Qed.
Lemma destroy_dumps os r es t f ev x : life os = FAlive r es t -> r_running r = true -> alive_ops os -> dump_file os None = Some f ->
  render (concat (map ev (r_sources r))) = Some x ->
  life (os ++ [RDestroy ev]) = FGone (es ++ (map XStop (r_sources r) ++ map XFinish (r_sources r)) ++ [XFile f x]) t.
Proof.
  intros H Hrun Ha Hd Hx. destruct (life_alive os Ha) as (r' & es' & t' & E0 & Hr & Hj & Hp & Hf). rewrite H in E0. injection E0 as <- <- <-.
  rewrite life_app, H. cbn [fbind Recorder_model.rrun Recorder_model.rstep]. unfold stop. rewrite Hj, <- Hr, Hrun, Hf, Hd. unfold write_file, collect. cbn [r_sources with_run].
  rewrite Hx. reflexivity.
Qed.
(** The text cannot be made: the sources are stopped and finished all the same, and there is no file. *)
Lemma unmade os r es t ev : life os = FAlive r es t -> render (concat (map ev (r_sources r))) = None ->
  life (os ++ [RCollect ev]) = FAlive r (es ++ map XStop (r_sources r) ++ map XFinish (r_sources r)) true
  /\ (forall f, life (os ++ [RWrite f ev]) = FAlive r (es ++ map XStop (r_sources r) ++ map XFinish (r_sources r)) true)
  /\ (alive_ops os -> dump_file os None <> None -> life (os ++ [RDestroy ev]) = FTerminated).
Proof.
  intros H Hx. rewrite life_app, H. split; [|split; [intro f; rewrite life_app, H|]]; try (cbn [fbind Recorder_model.rrun Recorder_model.rstep]; unfold write_file, collect; rewrite Hx; reflexivity).
  intros Ha Hd. destruct (life_alive os Ha) as (r' & es' & t' & E0 & Hr & Hj & Hp & Hf). rewrite H in E0. injection E0 as <- <- <-.
  rewrite life_app, H. cbn [fbind Recorder_model.rrun Recorder_model.rstep]. unfold stop. destruct (r_joinable r); [|reflexivity]. rewrite Hf. destruct (dump_file os None); [|congruence].
  unfold write_file, collect. cbn [r_sources with_run]. rewrite Hx. reflexivity.
Qed.
End P.
