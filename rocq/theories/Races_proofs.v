(** Variables that are used with care have no races. *)
From Coq Require Import List Arith Bool Lia.
Import ListNotations.
From Verif Require Locks_model.
Import Locks_model(lock(..), lock_dec).
From Verif Require Import Races_model Races_spec.

(** How the variables are taken care of. *)
Inductive care := By (l : lock) | Only (r : role) | Nothing.
Definition care_of (x : loc) : care :=
  match x with
  | VBroadcasts t => By (LBroadcast t)
  | VLoopEndpoints t => By (LEndpoint t)
  | VOngoing t => By (LRequest t)
  | VConnections t => Only (RTransport t)
  | VManager m => By (LManager m)
  | VScopes p => By (LMapping p)
  | VGeneral g => By (LGeneral g)
  | VSources p => By (LSources p)
  | VRecorded s => By (LData s)
  | VIncoming s => By (LIncoming s)
  | VSessions b => By (LSession b)
  | VRecSources r => By (LRecorder r)
  | VOrphans => By LOrphans
  | VTable k => By (LTracker k)
  | VThreads => By LConfig
  | VRecording p => By (LParser p)
  | _ => Nothing
  end.
Lemma care_some x : careless x = false -> of_library x = true -> care_of x <> Nothing.
Proof. destruct x; cbn; congruence. Qed.

Definition item := (mode * lock)%type.
Definition item_dec (a b : item) : {a = b} + {a <> b}.
Proof. decide equality; [apply lock_dec|apply mode_dec]. Defined.
(** Access of a thread of this role that has these mutexes. *)
Definition may_read (r : role) (h : list item) (x : loc) : Prop :=
  match care_of x with By l => exists m, In (m, l) h | Only r' => r' = r | Nothing => True end.
Definition may_write (r : role) (h : list item) (x : loc) : Prop :=
  match care_of x with By l => In (Excl, l) h | Only r' => r' = r | Nothing => True end.
Fixpoint good (r : role) (h : list item) (ls : list op) : Prop :=
  match ls with
  | [] => h = []
  | Acq m l :: k => good r ((m, l) :: h) k
  | Rel m l :: k => exists h', h = (m, l) :: h' /\ good r h' k
  | Get x :: k => may_read r h x /\ good r h k
  | Put x :: k => may_write r h x /\ good r h k
  | Wait _ :: k => good r h k
  end.

Section Machine.
Variable roles : nat -> role.
Hypothesis single : one_each roles.
Record inv (s : state) : Prop := {
  i_good : forall t, exists h, good (roles t) h (todo s t) /\ forall m l, count_occ item_dec h (m, l) = count_occ holder_dec (holders s l) (m, t);
  i_alone : forall l t, In (Excl, t) (holders s l) -> holders s l = [(Excl, t)]
}.
Lemma next_same f t r : next f t r t = r. Proof. unfold next. now destruct (Nat.eq_dec t t). Qed.
Lemma next_other f t r u : u <> t -> next f t r u = f u. Proof. intros H. unfold next. now destruct (Nat.eq_dec u t). Qed.
Lemma give_same f l v : give f l v l = v. Proof. unfold give. now destruct (lock_dec l l). Qed.
Lemma give_other f l v k : k <> l -> give f l v k = f k. Proof. intros H. unfold give. now destruct (lock_dec k l). Qed.
Lemma drop_count h hs k : count_occ holder_dec (drop h hs) k = if holder_dec k h then pred (count_occ holder_dec hs k) else count_occ holder_dec hs k.
Proof.
  induction hs as [|a hs IH]; cbn [drop count_occ]; [now destruct (holder_dec k h)|]. destruct (holder_dec a h) as [->|Ha].
  - destruct (holder_dec k h) as [->|Hk]; [now destruct (holder_dec h h)|]. destruct (holder_dec h k); congruence.
  - cbn [count_occ]. rewrite IH. destruct (holder_dec a k) as [->|Hk]; [|reflexivity]. now destruct (holder_dec k h).
Qed.
Lemma drop_in h hs k : In k (drop h hs) -> In k hs.
Proof. induction hs as [|a hs IH]; cbn [drop]; [auto|]. destruct (holder_dec a h); [now right|]. intros [->|H]; [now left|right; auto]. Qed.

Lemma same_h s t r (h : list item) : inv s -> (exists k, todo s t = k :: r) ->
  (good (roles t) h r /\ forall m l, count_occ item_dec h (m, l) = count_occ holder_dec (holders s l) (m, t)) -> inv {| todo := next (todo s) t r; holders := holders s |}.
Proof.
  intros [IG IA] _ [Hg Hc]. constructor; cbn [todo holders]; [|exact IA]. intros u. destruct (Nat.eq_dec u t) as [->|Hn]; [rewrite next_same; eauto|rewrite next_other by auto; apply IG].
Qed.
Lemma inv_step t s s' : inv s -> step t s = Some s' -> inv s'.
Proof.
  intros I E. pose proof I as [IG IA]. unfold step in E. destruct (todo s t) as [|o r] eqn:Et; [discriminate|]. destruct (IG t) as (h & Hg & Hc). rewrite Et in Hg. destruct o as [m l|m l|x|x|u]; cbn [good] in Hg.
  - destruct (free m (holders s l)) eqn:Ef; [|discriminate]. injection E as <-. constructor; cbn [todo holders].
    + intros u. destruct (Nat.eq_dec u t) as [->|Hn].
      * rewrite next_same. exists ((m, l) :: h). split; [exact Hg|]. intros m' k. cbn [count_occ]. rewrite Hc. destruct (lock_dec k l) as [->|Hk].
        -- rewrite give_same. cbn [count_occ]. destruct (item_dec (m, l) (m', l)), (holder_dec (m, t) (m', t)); congruence.
        -- rewrite give_other by auto. destruct (item_dec (m, l) (m', k)); congruence.
      * rewrite next_other by auto. destruct (IG u) as (h' & Hg' & Hc'). exists h'. split; [exact Hg'|]. intros m' k. rewrite Hc'. destruct (lock_dec k l) as [->|Hk].
        -- rewrite give_same. cbn [count_occ]. destruct (holder_dec (m, t) (m', u)); congruence.
        -- now rewrite give_other by auto.
    + intros k u. destruct (lock_dec k l) as [->|Hk]; [|rewrite give_other by auto; apply IA]. rewrite give_same. intros H. destruct m; cbn [free] in Ef.
      * destruct (holders s l); [|discriminate]. destruct H as [H|[]]. injection H as ->. reflexivity.
      * destruct H as [H|H]; [discriminate|]. rewrite forallb_forall in Ef. apply Ef in H. discriminate.
  - injection E as <-. destruct Hg as (h' & -> & Hg). constructor; cbn [todo holders].
    + intros u. destruct (Nat.eq_dec u t) as [->|Hn].
      * rewrite next_same. exists h'. split; [exact Hg|]. intros m' k. specialize (Hc m' k). cbn [count_occ] in Hc. destruct (lock_dec k l) as [->|Hk].
        -- rewrite give_same, drop_count, <- Hc. destruct (item_dec (m, l) (m', l)), (holder_dec (m', t) (m, t)); try congruence; reflexivity.
        -- rewrite give_other by auto. destruct (item_dec (m, l) (m', k)); congruence.
      * rewrite next_other by auto. destruct (IG u) as (h2 & Hg2 & Hc2). exists h2. split; [exact Hg2|]. intros m' k. rewrite Hc2. destruct (lock_dec k l) as [->|Hk].
        -- rewrite give_same, drop_count. destruct (holder_dec (m', u) (m, t)); congruence.
        -- now rewrite give_other by auto.
    + intros k u. destruct (lock_dec k l) as [->|Hk]; [|rewrite give_other by auto; apply IA]. rewrite give_same. intros H. pose proof (drop_in _ _ _ H) as H1. pose proof (IA _ _ H1) as H2.
      rewrite H2 in H |- *. cbn [drop] in H |- *. destruct (holder_dec (Excl, u) (m, t)); [contradiction|reflexivity].
  - injection E as <-. apply (same_h s t r h I); [eauto|split; [apply Hg|exact Hc]].
  - injection E as <-. apply (same_h s t r h I); [eauto|split; [apply Hg|exact Hc]].
  - destruct (todo s u); [|discriminate]. injection E as <-. apply (same_h s t r h I); [eauto|split; [apply Hg|exact Hc]].
Qed.
Lemma has s t h m l : (forall m l, count_occ item_dec h (m, l) = count_occ holder_dec (holders s l) (m, t)) -> In (m, l) h -> In (m, t) (holders s l).
Proof. intros Hc H. apply (count_occ_In holder_dec). rewrite <- Hc. now apply count_occ_In. Qed.
(** At most one thread has a role but that of the user. *)
Lemma no_race s x : inv s -> care_of x <> Nothing -> (forall r, care_of x = Only r -> r <> RUser) -> ~ race x s.
Proof.
  intros [IG IA] Hx Hu (t & u & Hn & (r & Et) & (k & Eu)). destruct (IG t) as (h & Hg & Hc), (IG u) as (h' & Hg' & Hc'). rewrite Et in Hg. cbn [good] in Hg. destruct Hg as [Hw _].
  assert (Hr : may_read (roles u) h' x).
  { destruct Eu as [Eu|Eu]; rewrite Eu in Hg'; cbn [good] in Hg'; [apply Hg'|]. destruct Hg' as [H _]. unfold may_read, may_write in *. destruct (care_of x); eauto. }
  unfold may_read, may_write in *. destruct (care_of x) as [l|ro|] eqn:Ex; [|subst ro|congruence].
  - destruct Hr as (m & Hr). apply (has s t h _ _ Hc) in Hw. apply (has s u h' _ _ Hc') in Hr. rewrite (IA _ _ Hw) in Hr. destruct Hr as [Hr|[]]. congruence.
  - specialize (Hu _ eq_refl). destruct (single t u); congruence.
Qed.
Lemma start prog : (forall t, good (roles t) [] (prog t)) -> inv (begin prog).
Proof. intros H. constructor; cbn [todo holders begin]; [|contradiction]. intros t. exists []. split; [apply H|reflexivity]. Qed.
Lemma inv_run ts : forall s s', inv s -> run ts s = Some s' -> inv s'.
Proof.
  induction ts as [|t ts IH]; intros s s' I E; cbn [run] in E; [congruence|]. destruct (step t s) as [s1|] eqn:E1; [|discriminate]. eauto using inv_step.
Qed.
End Machine.

(** ** From the functions to the programs *)
Section Codes.
Variable r : role.
Fixpoint ok (h : list item) (c : code) : Prop :=
  match c with
  | Nop => True
  | Seq x y | Either x y => ok h x /\ ok h y
  | Many x => ok h x
  | Any f => forall i, ok h (f i)
  | Locked m l x => ok ((m, l) :: h) x
  | Read x => may_read r h x
  | Write x => may_write r h x
  | Join _ => True
  end.
Lemma ok_mono c : forall h h', incl h h' -> ok h c -> ok h' c.
Proof.
  induction c as [|x IHx y IHy|x IHx y IHy|x IHx|f IHf|m l x IHx|x|x|u]; intros h h' Hb; cbn [ok]; auto.
  - intros [H1 H2]. eauto.
  - intros [H1 H2]. eauto.
  - eauto.
  - eauto.
  - apply IHx. intros a [<-|Ha]; [now left|right; auto].
  - unfold may_read. destruct (care_of x); auto. intros (m & H). eauto.
  - unfold may_write. destruct (care_of x); auto.
Qed.
Lemma trace_good c x : trace c x -> forall h k, ok h c -> good r h k -> good r h (x ++ k).
Proof.
  intros H. induction H as [|a b x y Ha IHa Hb IHb|a b x Ha IHa|a b x Hb IHb|a|a x y Ha IHa Hb IHb|f i x Hf IHf|m l a x Ha IHa|x|x|u]; intros h k Ho Hg; cbn [ok] in Ho; cbn [app].
  - exact Hg.
  - rewrite <- app_assoc. apply IHa; [apply Ho|]. apply IHb; [apply Ho|exact Hg].
  - apply IHa; [apply Ho|exact Hg].
  - apply IHb; [apply Ho|exact Hg].
  - exact Hg.
  - rewrite <- app_assoc. apply IHa; [exact Ho|]. apply IHb; [exact Ho|exact Hg].
  - apply IHf; auto.
  - cbn [good]. rewrite <- app_assoc. apply IHa; [exact Ho|]. cbn [app good]. eauto.
  - cbn [good]. auto.
  - cbn [good]. auto.
  - cbn [good]. auto.
Qed.
Lemma trace_good0 c x : trace c x -> ok [] c -> good r [] x.
Proof. intros H Ho. rewrite <- (app_nil_r x). apply (trace_good c x H [] []); [exact Ho|reflexivity]. Qed.
End Codes.

(** ** The library *)
Section Lib.
Variables (roles : nat -> role) (cb : callbacks).
(** Fine for every thread, whatever it has. *)
Definition fine (c : code) : Prop := forall r h, ok r h c.
Hypothesis f_log : fine (cb_log cb).
Hypothesis f_name : fine (cb_name cb).
Hypothesis f_handle : forall t, fine (cb_handle cb t).
Hypothesis f_unsolicited : forall t, fine (cb_unsolicited cb t).
Hypothesis f_factory : fine (cb_factory cb).
Hypothesis f_source : fine (cb_source cb).

Ltac isin := first [left; reflexivity | right; isin].
Ltac go := repeat match goal with
  | |- True => exact I
  | |- _ /\ _ => split
  | |- forall _, _ => intro
  | |- ok _ _ (cb_log _) => apply f_log
  | |- ok _ _ (cb_name _) => apply f_name
  | |- ok _ _ (cb_handle _ _) => apply f_handle
  | |- ok _ _ (cb_unsolicited _ _) => apply f_unsolicited
  | |- ok _ _ (cb_factory _) => apply f_factory
  | |- ok _ _ (cb_source _) => apply f_source
  | |- ok _ _ (if ?b then _ else _) => destruct b
  | |- ok _ _ (maybe _) => split
  | H : forall _, fine (?f _) |- ok _ _ (?f _) => apply H
  | H : forall _ _, fine (?f _ _) |- ok _ _ (?f _ _) => apply H
  | H : fine ?c |- ok _ _ ?c => apply H
  | |- may_read _ _ _ => unfold may_read; cbn [care_of table]
  | |- may_write _ _ _ => unfold may_write; cbn [care_of table]
  | |- exists m, In _ _ => eexists; cbn [In]; isin
  | |- In _ _ => cbn [In]; isin
  | |- _ = _ => reflexivity
  | |- fine _ => intros ? ?
  | |- ok _ _ ?c => let c' := eval hnf in c in progress change c with c'; cbn [ok]
  | |- ok _ _ _ => cbn [ok]
  end.
Lemma f_join x : fine (join roles x). Proof. intros r h i. cbn [ok]. now destruct (role_dec (roles i) x). Qed.
Hint Resolve f_join : core.
Lemma f_broadcast t : fine (broadcast t). Proof. go. Qed.
Lemma f_pop t : fine (pop_broadcast t). Proof. go. Qed.
Lemma f_have t : fine (have_broadcast t). Proof. go. Qed.
Lemma f_sender : fine (end_sender roles). Proof. pose proof f_join. go. Qed.
Lemma f_add t b : fine (add_endpoint roles cb t b). Proof. pose proof f_sender. destruct b; go. Qed.
Lemma f_endpoints_of t b : fine (endpoints_of t b). Proof. destruct b; go. Qed.
Lemma f_request t : fine (request t). Proof. go. Qed.
Lemma f_connected t : fine (is_connected t). Proof. go. Qed.
Lemma f_end_transport : fine (end_transport roles). Proof. pose proof f_sender. pose proof f_join. go. Qed.
Lemma f_tread k : fine (tracker_read k). Proof. go. Qed.
Lemma f_twrite k : fine (tracker_write k). Proof. go. Qed.
Lemma f_hand t b : fine (handle cb t b). Proof. pose proof f_tread. pose proof f_endpoints_of. go. Qed.
Lemma f_unsol t : fine (unsolicited cb t). Proof. go. Qed.
Lemma f_manage m : fine (manage roles cb m). Proof. pose proof f_add. pose proof f_end_transport. pose proof f_request. pose proof f_connected. go. Qed.
Lemma f_endpoints m : fine (endpoints m). Proof. go. Qed.
Lemma f_stop m : fine (stop_polling roles m). Proof. pose proof f_join. go. Qed.
Lemma f_ask : fine ask. Proof. pose proof f_endpoints. pose proof f_request. go. Qed.
Lemma f_update p : fine (update_mapping p). Proof. pose proof f_ask. go. Qed.
Lemma f_get p : fine (get_mapping p). Proof. go. Qed.
Lemma f_src : fine (source cb). Proof. pose proof f_ask. pose proof f_update. pose proof f_get. go. Qed.
Lemma f_make : fine make_source. Proof. go. Qed.
Lemma f_end_source : fine (end_source roles). Proof. pose proof f_join. pose proof f_stop. pose proof f_end_transport. go. Qed.
Lemma f_end_session : fine (end_session roles). Proof. pose proof f_join. pose proof f_end_source. go. Qed.
Lemma f_rec r : fine (recorder_sources cb r). Proof. pose proof f_src. go. Qed.
Lemma f_point : fine trace_point. Proof. pose proof f_tread. pose proof f_twrite. go. Qed.
Lemma f_ends : fine thread_ends. Proof. pose proof f_tread. pose proof f_twrite. go. Qed.
Lemma f_api : fine (api roles cb).
Proof.
  pose proof f_join. pose proof f_broadcast. pose proof f_add. pose proof f_endpoints_of. pose proof f_request. pose proof f_connected. pose proof f_end_transport. pose proof f_manage. pose proof f_endpoints.
  pose proof f_stop. pose proof f_ask. pose proof f_src. pose proof f_make. pose proof f_end_source. pose proof f_end_session. pose proof f_rec. pose proof f_point. pose proof f_ends. go.
Qed.
Lemma thread_ok t : ok (roles t) [] (thread_code roles cb t).
Proof.
  pose proof f_join. pose proof f_broadcast. pose proof f_pop. pose proof f_have. pose proof f_endpoints_of. pose proof f_end_transport. pose proof f_manage. pose proof f_hand. pose proof f_unsol.
  pose proof f_src. pose proof f_make. pose proof f_end_session. pose proof f_tread. pose proof f_api. unfold thread_code. destruct (roles t); go.
Qed.
End Lib.

Lemma user_fine roles c : user_code roles c -> fine c.
Proof.
  intros H. induction H as [|a b _ IHa _ IHb|a b _ IHa _ IHb|a _ IHa|f _ IHf|m n a _ IHa|a _ IHa|n|n|cb]; intros r h; cbn [ok]; auto; try (exact I).
  - intros i. apply IHf.
  - now apply f_api.
Qed.
Theorem library_races x s : of_library x = true -> careless x = false -> possible s -> ~ race x s.
Proof.
  intros Hl Hc (roles & cb & prog & Hone & (U1 & U2 & U3 & U4 & U5 & U6) & Hp & ts & E). apply (no_race roles Hone).
  - apply (inv_run roles ts (begin prog)); [|exact E]. apply start. intros t. destruct (prog t) eqn:Et; [reflexivity|]. rewrite <- Et. apply (trace_good0 _ (thread_code roles cb t)).
    + apply Hp. congruence.
    + apply thread_ok; [| |intros| intros| | ]; apply (user_fine roles); auto.
  - now apply care_some.
  - intros r. destruct x; cbn; congruence.
Qed.
