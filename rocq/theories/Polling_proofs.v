(** Proofs for C112. *)
From Coq Require Import List Arith Bool Lia.
Import ListNotations.
From Verif Require Import Polling_model Polling_spec.

Lemma put_last {A} (d : list A) x y : put (length d) x (d ++ [y]) = d ++ [x].
Proof.
  unfold put. rewrite skipn_all2 by (rewrite app_length; cbn; lia). rewrite firstn_app, Nat.sub_diag, firstn_all. cbn. now rewrite app_nil_r.
Qed.
Lemma nth_last {A} (d : list A) x : nth_error (d ++ [x]) (length d) = Some x.
Proof. rewrite nth_error_app2, Nat.sub_diag by lia. reflexivity. Qed.
Lemma nth_snoc {A} (d : list A) x k y : nth_error (d ++ [x]) k = Some y -> In y d \/ (k = length d /\ y = x).
Proof.
  intros H. destruct (lt_dec k (length d)) as [L|L].
  - left. rewrite nth_error_app1 in H by lia. exact (nth_error_In _ _ H).
  - right. rewrite nth_error_app2 in H by lia. destruct (k - length d) as [|j] eqn:E; cbn in H; [|destruct j; discriminate]. split; [lia|congruence].
Qed.

Definition dead_list (d : list wpc) : Prop := Forall (eq WEnded) d.
Lemma dead_later d : dead_list d -> all_later d = Some d.
Proof. induction 1 as [|x l <- _ IH]; cbn; [reflexivity|]. now rewrite IH. Qed.
Lemma snoc_later d w : dead_list d -> all_later (d ++ [w]) = match later w with Some y => Some (d ++ [y]) | None => None end.
Proof. induction 1 as [|x l <- _ IH]; cbn; [destruct (later w); reflexivity|]. rewrite IH. destruct (later w); reflexivity. Qed.

Ltac flat := repeat match goal with
  | H : exists _, _ |- _ => destruct H
  | H : _ /\ _ |- _ => destruct H
  end.

Section Bounds.
Variables M I : nat.

Definition fine (c : call) : Prop := exists t, ca_pc c = Returned t /\ ca_begin c <= t <= ca_begin c + (M + I).
Definition bounded (w : wpc) : Prop := match w with WPoll n => n <= M | WSleep n => n <= I | _ => True end.
Definition rest (w : wpc) : nat := match w with WPoll n => n + I | WSleep n => n | _ => 0 end.
Definition is_off (d : list wpc) (s : state) : Prop := on s = false /\ thread s = None /\ workers s = d.
Definition is_on (d : list wpc) (w : wpc) (s : state) : Prop := on s = true /\ thread s = Some (length d) /\ workers s = d ++ [w] /\ bounded w /\ w <> WEnded /\ interval s <= I.
Definition is_ending (d : list wpc) (w : wpc) (s : state) : Prop := on s = false /\ thread s = Some (length d) /\ workers s = d ++ [w] /\ bounded w /\ interval s <= I.
(** When the last poll began, [t] being the time since when there are polls, and [i] the interval. *)
Definition fresh (t i : nat) (w : wpc) (s : state) : Prop :=
  t <= now s /\
  match w with
  | WTest => now s = t \/ exists b, In b (polls s) /\ t <= b <= now s /\ now s <= b + (M + i)
  | WPoll n => exists b, In b (polls s) /\ t <= b <= now s /\ now s + n <= b + M
  | WSleep n => exists b, In b (polls s) /\ t <= b <= now s /\ now s + n <= b + (M + i)
  | WEnded => False
  end.
Definition asked (c : call) : Prop := match ca_what c with Start i => i <= I | _ => True end.
Definition current (d : list wpc) (c : call) (s : state) : Prop :=
  match ca_pc c with
  | AtTest => now s = ca_begin c /\ (is_off d s \/ exists w, is_on d w s)
  | AtClear => now s = ca_begin c /\ exists w, is_on d w s
  | AtJoin => now s = ca_begin c /\ exists w, is_ending d w s
  | InJoin v => v = length d /\ exists w, is_ending d w s /\ ca_begin c <= now s /\ now s + rest w <= ca_begin c + (M + I)
  | AtSet i => is_off d s /\ ca_what c = Start i /\ ca_begin c <= now s <= ca_begin c + (M + I)
  | AtCreate => on s = true /\ thread s = None /\ workers s = d /\ ca_what c = Start (interval s) /\ ca_begin c <= now s <= ca_begin c + (M + I)
  | _ => False
  end.
Inductive inv (s : state) : Prop :=
  | inv_off d : over s = None -> dead_list d -> is_off d s -> Forall fine (calls s) -> polling_wanted s = false -> inv s
  | inv_on d w cs c t : over s = None -> dead_list d -> is_on d w s -> calls s = cs ++ [c] -> Forall fine (calls s) -> ca_what c = Start (interval s) -> ca_pc c = Returned t ->
      fresh t (interval s) w s -> inv s
  | inv_current d cs c : over s = None -> dead_list d -> calls s = cs ++ [c] -> Forall fine cs -> asked c -> current d c s -> inv s.

Lemma fine_go k x s : fine x -> go k x s = None.
Proof. intros (t & E & _). unfold go. now rewrite E. Qed.
Lemma no_join cs c : Forall fine cs -> is_in_join c = false -> existsb is_in_join (cs ++ [c]) = false.
Proof.
  intros F Hc. rewrite existsb_app. cbn. rewrite Hc, orb_false_r. cbn. induction F as [|x l (t & E & _) _ IH]; cbn; auto. unfold is_in_join at 1. now rewrite E.
Qed.
Lemma wanted_snoc s cs c : calls s = cs ++ [c] -> polling_wanted s = match ca_what c with Start _ => true | _ => false end.
Proof. intros E. unfold polling_wanted. rewrite E, rev_app_distr. reflexivity. Qed.

(** The polling thread that lives goes on. *)
Lemma poll_living d w s m v s' : dead_list d -> workers s = d ++ [w] -> poll v m s = Some s' -> v = length d /\
  s' = match w with
       | WTest => if on s then {| now := now s; on := on s; interval := interval s; thread := thread s; workers := d ++ [WPoll m]; calls := calls s; polls := polls s ++ [now s]; over := over s |}
                  else with_workers (d ++ [WEnded]) s
       | WPoll _ => with_workers (d ++ [WSleep (interval s)]) s
       | WSleep _ => with_workers (d ++ [WTest]) s
       | WEnded => s
       end /\ match w with WPoll 0 | WSleep 0 | WTest => True | _ => False end.
Proof.
  intros HD E H. unfold poll in H. destruct (nth_error (workers s) v) as [x|] eqn:En; [|discriminate]. rewrite E in En. destruct (nth_snoc d w v x En) as [Hi|[-> ->]].
  - unfold dead_list in HD. rewrite Forall_forall in HD. rewrite <- (HD x Hi) in H. discriminate.
  - split; [reflexivity|]. rewrite E, !put_last in H. destruct w as [|[|n]|[|n]|]; try discriminate H; injection H as <-; auto; destruct (on s); auto.
Qed.
Lemma poll_dead d s m v : dead_list d -> workers s = d -> poll v m s = None.
Proof.
  intros HD E. unfold poll. destruct (nth_error (workers s) v) as [x|] eqn:En; [|reflexivity]. rewrite E in En. unfold dead_list in HD. rewrite Forall_forall in HD.
  now rewrite <- (HD x (nth_error_In _ _ En)).
Qed.

Lemma step_inv l s s' : inv s -> within M I l -> (forall c, l = Call c -> quiet s) -> (forall w c, l <> Inside w c) -> step l s = Some s' -> inv s'.
Proof.
  intros H Hw Hq Hi St.
  assert (Ho : over s = None) by (destruct H; auto). unfold step in St. rewrite Ho in St. destruct l as [c|k|v m|v c|].
  - (* a call *)
    injection St as <-. specialize (Hq c eq_refl).
    assert (K : forall d, dead_list d -> Forall fine (calls s) -> (is_off d s \/ exists w, is_on d w s) -> inv (with_calls (calls s ++ [{| ca_what := c; ca_begin := now s; ca_pc := AtTest |}]) s)).
    { intros d HD F O. eapply inv_current with (d := d); cbn; eauto. repeat split. exact O. }
    destruct H as [d _ HD O F _|d w cs c0 t _ HD O _ F _ _ _|d cs c0 _ HD Ec F _ Cu].
    + apply (K d HD F). now left.
    + apply (K d HD F). right. eauto.
    + exfalso. unfold quiet in Hq. rewrite Ec, Forall_app in Hq. destruct Hq as [_ Hq]. inversion Hq as [|? ? (t & Et) _]; subst. unfold current in Cu. now rewrite Et in Cu.
  - (* a call goes on *)
    destruct (nth_error (calls s) k) as [x|] eqn:Ek; [|discriminate].
    assert (Q : Forall fine (calls s) -> False).
    { intros F. rewrite Forall_forall in F. rewrite (fine_go k x s (F x (nth_error_In _ _ Ek))) in St. discriminate. }
    destruct H as [d _ HD O F _|d w cs c0 t _ HD O _ F _ _ _|d cs c _ HD Ec F As Cu]; [destruct (Q F)|destruct (Q F)|]. clear Q.
    rewrite Ec in Ek. apply nth_snoc in Ek as [Hin|[-> ->]]; [rewrite Forall_forall in F; rewrite (fine_go k x s (F x Hin)) in St; discriminate|].
    assert (Pc : forall p s1, calls s1 = calls s -> calls (goes (length cs) c p s1) = cs ++ [{| ca_what := ca_what c; ca_begin := ca_begin c; ca_pc := p |}]).
    { intros p s1 E1. cbn. rewrite E1, Ec. apply put_last. }
    (* how stopPolling ends *)
    assert (Stp : forall s1, calls s1 = calls s -> over s1 = None -> is_off d s1 -> ca_begin c <= now s1 <= ca_begin c + (M + I) -> inv (stopped (length cs) c s1)).
    { intros s1 E1 O1 Of Ti. unfold stopped. unfold asked in As. destruct (ca_what c) as [i| |] eqn:Ew.
      - eapply inv_current with (d := d); [exact O1|exact HD|apply Pc; exact E1|exact F|exact As|]. unfold current; cbn. auto.
      - eapply inv_off with (d := d); [exact O1|exact HD|exact Of| |].
        + rewrite (Pc _ _ E1). apply Forall_app. split; [exact F|]. constructor; [|constructor]. exists (now s1). cbn. auto.
        + erewrite wanted_snoc; [|apply Pc; exact E1]. reflexivity.
      - pose proof Of as (_ & Th & _). rewrite Th. eapply inv_off with (d := d); [exact O1|exact HD|exact Of| |].
        + rewrite (Pc _ _ E1). apply Forall_app. split; [exact F|]. constructor; [|constructor]. exists (now s1). cbn. auto.
        + erewrite wanted_snoc; [|apply Pc; exact E1]. reflexivity. }
    unfold go in St. unfold current in Cu. destruct (ca_pc c) as [| | |v|i| |t|] eqn:Epc; try contradiction.
    + (* AtTest *) destruct Cu as (Tn & [Of|(w & On)]).
      * pose proof Of as (Eo & _). rewrite Eo in St. injection St as <-. apply Stp; auto. lia.
      * pose proof On as (Eo & _). rewrite Eo in St. injection St as <-. eapply inv_current with (d := d); [exact Ho|exact HD|apply Pc; reflexivity|exact F|exact As|].
        cbn. split; [exact Tn|]. exists w. exact On.
    + (* AtClear *) destruct Cu as (Tn & w & Eo & Th & Ew & Bw & Nw & Iw). injection St as <-. eapply inv_current with (d := d); [exact Ho|exact HD|apply Pc; reflexivity|exact F|exact As|].
      cbn. split; [exact Tn|]. exists w. repeat split; auto.
    + (* AtJoin *) destruct Cu as (Tn & w & En). pose proof En as (Eo & Th & Ew & Bw & Iw). rewrite Th in St. rewrite Ec, no_join in St; [|exact F|unfold is_in_join; now rewrite Epc]. injection St as <-.
      eapply inv_current with (d := d); [exact Ho|exact HD|apply Pc; reflexivity|exact F|exact As|]. cbn. split; [reflexivity|]. exists w. split; [exact En|].
      split; [lia|]. rewrite Tn. destruct w; cbn in *; lia.
    + (* InJoin *) destruct Cu as (-> & w & En & Tb & Tr). pose proof En as (Eo & Th & Ew & Bw & Iw). rewrite Ew, nth_last in St. destruct w; try discriminate. injection St as <-.
      clear Stp. assert (HD' : dead_list (d ++ [WEnded])) by (apply Forall_app; split; [exact HD|repeat constructor]).
      set (s1 := with_thread None s). assert (Of : is_off (d ++ [WEnded]) s1) by (repeat split; auto). cbn in Tr.
      assert (Ti : ca_begin c <= now s1 <= ca_begin c + (M + I)) by (cbn; lia).
      unfold stopped. unfold asked in As. destruct (ca_what c) as [i| |] eqn:Ewh.
      * eapply inv_current with (d := d ++ [WEnded]); [exact Ho|exact HD'|apply Pc; reflexivity|exact F|exact As|]. unfold current; cbn. auto.
      * eapply inv_off with (d := d ++ [WEnded]); [exact Ho|exact HD'|exact Of| |].
        -- rewrite Pc by reflexivity. apply Forall_app. split; [exact F|]. constructor; [|constructor]. exists (now s1). cbn. auto.
        -- erewrite wanted_snoc; [|apply Pc; reflexivity]. reflexivity.
      * cbn [thread with_thread s1]. eapply inv_off with (d := d ++ [WEnded]); [exact Ho|exact HD'|exact Of| |].
        -- rewrite Pc by reflexivity. apply Forall_app. split; [exact F|]. constructor; [|constructor]. exists (now s1). cbn. auto.
        -- erewrite wanted_snoc; [|apply Pc; reflexivity]. reflexivity.
    + (* AtSet *) destruct Cu as ((Eo & Th & Ew) & Ewh & Ti). injection St as <-. eapply inv_current with (d := d); [exact Ho|exact HD|apply Pc; reflexivity|exact F|exact As|].
      cbn. repeat split; auto; lia.
    + (* AtCreate *) destruct Cu as (Eo & Th & Ew & Ewh & Ti). injection St as <-. unfold create. rewrite Th.
      eapply inv_on with (d := d) (w := WTest) (t := now s); [exact Ho|exact HD| |apply Pc; reflexivity| | | |].
      * repeat split; auto; cbn; try (rewrite Ew; reflexivity); try discriminate. unfold asked in As. rewrite Ewh in As. exact As.
      * rewrite Pc by reflexivity. apply Forall_app. split; [exact F|]. constructor; [|constructor]. exists (now s). cbn. auto.
      * cbn. exact Ewh.
      * reflexivity.
      * split; cbn; auto.
  - (* a polling thread goes on *)
    destruct H as [d _ HD (Eo & Th & Ew) F Wa|d w cs c0 t _ HD On Ec F Wh Pt Fr|d cs c _ HD Ec F As Cu].
    + rewrite (poll_dead d s m v HD Ew) in St. discriminate.
    + pose proof On as (Eo & Th & Ew & Bw & Nw & Iw). destruct (poll_living d w s m v s' HD Ew St) as (_ & -> & Hz). cbn in Hw. destruct Fr as [Ft Fr].
      assert (K : forall w', bounded w' -> w' <> WEnded -> fresh t (interval s) w' s -> inv (with_workers (d ++ [w']) s)).
      { intros w' B' N' F'. eapply inv_on with (d := d) (w := w') (t := t); cbn; eauto. repeat split; auto. }
      destruct w as [|[|n]|[|n]|]; try contradiction.
      * rewrite Eo. eapply inv_on with (d := d) (w := WPoll m) (t := t); cbn; eauto; [repeat split; auto; discriminate|]. split; [exact Ft|]. cbn. exists (now s). rewrite in_app_iff. cbn. repeat split; auto; lia.
      * apply K; [exact Iw|discriminate|]. split; [exact Ft|]. destruct Fr as (b & Hb & B1 & B2). exists b. repeat split; auto; lia.
      * apply K; [exact Logic.I|discriminate|]. split; [exact Ft|]. right. destruct Fr as (b & Hb & B1 & B2). exists b. repeat split; auto; lia.
    + (* in a call *)
      cbn in Hw.
      assert (KO : forall w, is_on d w s -> exists w', is_on d w' s' /\ calls s' = calls s /\ now s' = now s /\ over s' = None).
      { intros w (Eo & Th & Ew & Bw & Nw & Iw). destruct (poll_living d w s m v s' HD Ew St) as (_ & -> & Hz). destruct w as [|[|n]|[|n]|]; try contradiction.
        - rewrite Eo. exists (WPoll m). repeat split; auto. discriminate.
        - exists (WSleep (interval s)). repeat split; auto. discriminate.
        - exists WTest. repeat split; auto. discriminate. }
      assert (KE : forall w, is_ending d w s -> exists w', is_ending d w' s' /\ calls s' = calls s /\ now s' = now s /\ over s' = None /\ rest w' <= rest w).
      { intros w (Eo & Th & Ew & Bw & Iw). destruct (poll_living d w s m v s' HD Ew St) as (_ & -> & Hz). destruct w as [|[|n]|[|n]|]; try contradiction.
        - rewrite Eo. exists WEnded. repeat split; auto.
        - exists (WSleep (interval s)). repeat split; auto.
        - exists WTest. repeat split; auto. }
      unfold current in Cu. destruct (ca_pc c) as [| | |j|i| |t|] eqn:Epc; try contradiction.
      * destruct Cu as (Tn & [(Eo & Th & Ew)|(w & On)]); [rewrite (poll_dead d s m v HD Ew) in St; discriminate|]. destruct (KO w On) as (w' & On' & C' & N' & O').
        eapply inv_current with (d := d); [exact O'|exact HD|rewrite C'; exact Ec|exact F|exact As|]. unfold current. rewrite Epc. split; [lia|]. right. eauto.
      * destruct Cu as (Tn & w & On). destruct (KO w On) as (w' & On' & C' & N' & O').
        eapply inv_current with (d := d); [exact O'|exact HD|rewrite C'; exact Ec|exact F|exact As|]. unfold current. rewrite Epc. split; [lia|]. eauto.
      * destruct Cu as (Tn & w & En). destruct (KE w En) as (w' & En' & C' & N' & O' & R').
        eapply inv_current with (d := d); [exact O'|exact HD|rewrite C'; exact Ec|exact F|exact As|]. unfold current. rewrite Epc. split; [lia|]. eauto.
      * destruct Cu as (-> & w & En & Tb & Tr). destruct (KE w En) as (w' & En' & C' & N' & O' & R').
        eapply inv_current with (d := d); [exact O'|exact HD|rewrite C'; exact Ec|exact F|exact As|]. unfold current. rewrite Epc. split; [reflexivity|]. exists w'. split; [exact En'|lia].
      * destruct Cu as ((_ & _ & Ew) & _). rewrite (poll_dead d s m v HD Ew) in St. discriminate.
      * destruct Cu as (_ & _ & Ew & _). rewrite (poll_dead d s m v HD Ew) in St. discriminate.
  - exfalso. exact (Hi v c eq_refl).
  - (* time passes *)
    destruct (forallb (waits s) (calls s)) eqn:Wt; [|discriminate]. destruct H as [d _ HD (Eo & Th & Ew) F Wa|d w cs c0 t _ HD On Ec F Wh Pt Fr|d cs c _ HD Ec F As Cu].
    + rewrite Ew, (dead_later d HD) in St. injection St as <-. eapply inv_off with (d := d); cbn; eauto. repeat split; auto.
    + pose proof On as (Eo & Th & Ew & Bw & Nw & Iw). rewrite Ew, (snoc_later d w HD) in St. destruct (later w) as [y|] eqn:El; [|discriminate]. injection St as <-. destruct Fr as [Ft Fr].
      destruct w as [|[|n]|[|n]|]; try discriminate El; try contradiction; injection El as <-; cbn in Bw.
      * eapply inv_on with (d := d) (w := WPoll n) (t := t); cbn; eauto; [repeat split; auto; cbn; try lia; discriminate|]. split; cbn; [lia|].
        destruct Fr as (b & Hb & B1 & B2). exists b. repeat split; auto; lia.
      * eapply inv_on with (d := d) (w := WSleep n) (t := t); cbn; eauto; [repeat split; auto; cbn; try lia; discriminate|]. split; cbn; [lia|].
        destruct Fr as (b & Hb & B1 & B2). exists b. repeat split; auto; lia.
    + rewrite forallb_forall in Wt. specialize (Wt c ltac:(rewrite Ec; apply in_or_app; right; left; reflexivity)). unfold waits in Wt. unfold current in Cu.
      destruct (ca_pc c) as [| | |j|i| |t|] eqn:Epc; try contradiction; try discriminate Wt.
      destruct Cu as (-> & w & En & Tb & Tr). pose proof En as (Eo & Th & Ew & Bw & Iw). rewrite Ew, nth_last in Wt. rewrite Ew, (snoc_later d w HD) in St.
      destruct (later w) as [y|] eqn:El; [|discriminate]. injection St as <-. eapply inv_current with (d := d); cbn; eauto. unfold current. rewrite Epc. split; [reflexivity|]. exists y.
      destruct w as [|[|n]|[|n]|]; try discriminate El; try discriminate Wt; injection El as <-; cbn in *; (split; [repeat split; auto; cbn; lia|lia]).
Qed.

Lemma serial_inv ls s : serial ls s -> Forall (within M I) ls -> inv s.
Proof.
  induction 1 as [|ls s l s' H IH St Q N]; intros F.
  - apply inv_off with (d := []); repeat constructor.
  - apply Forall_app in F as [F1 F2]. inversion F2; subst. eapply step_inv; eauto.
Qed.
End Bounds.

Lemma bounds ls : exists M I, Forall (within M I) ls.
Proof.
  induction ls as [|l ls (M & I & H)]; [exists 0, 0; constructor|].
  exists (M + match l with Work _ m => m | _ => 0 end), (I + match l with Call (Start i) => i | _ => 0 end). constructor.
  - destruct l as [[]| | | |]; cbn; auto; lia.
  - eapply Forall_impl; [|exact H]. intros [[]| | | |]; cbn; auto; intros; lia.
Qed.
Lemma living_dead d : dead_list d -> length (filter (fun w => match w with WEnded => false | _ => true end) d) = 0.
Proof. induction 1 as [|x l <- _ IH]; cbn; auto. Qed.
Lemma living_snoc d w : dead_list d -> length (filter (fun w => match w with WEnded => false | _ => true end) (d ++ [w])) = match w with WEnded => 0 | _ => 1 end.
Proof. intros H. rewrite filter_app, app_length, (living_dead d H). destruct w; reflexivity. Qed.

Theorem serial_safe ls s : serial ls s -> over s = None /\ Forall (fun c => ca_pc c <> Threw) (calls s) /\ living s <= 1.
Proof.
  intros H. destruct (bounds ls) as (M & I & F). pose proof (serial_inv M I ls s H F) as V.
  assert (T : forall cs, Forall (fine M I) cs -> Forall (fun c => ca_pc c <> Threw) cs).
  { intros cs Fc. eapply Forall_impl; [|exact Fc]. intros c (t & E & _). rewrite E. discriminate. }
  unfold living. destruct V as [d O HD (_ & _ & Ew) Fc _|d w cs c0 t O HD (_ & _ & Ew & _) Ec Fc _ _ _|d cs c O HD Ec Fc As Cu].
  - rewrite Ew, (living_dead d HD). auto.
  - rewrite Ew, (living_snoc d w HD). repeat split; auto. destruct w; lia.
  - repeat split; auto.
    + rewrite Ec. apply Forall_app. split; auto. constructor; [|constructor]. intros E. unfold current in Cu. now rewrite E in Cu.
    + unfold current in Cu. destruct (ca_pc c) as [| | |j|i| |t|]; try contradiction.
      * destruct Cu as (_ & [(_ & _ & Ew)|(w & _ & _ & Ew & _)]); rewrite Ew; [rewrite (living_dead d HD); lia|rewrite (living_snoc d w HD); destruct w; lia].
      * destruct Cu as (_ & w & _ & _ & Ew & _). rewrite Ew, (living_snoc d w HD). destruct w; lia.
      * destruct Cu as (_ & w & _ & _ & Ew & _). rewrite Ew, (living_snoc d w HD). destruct w; lia.
      * destruct Cu as (_ & w & (_ & _ & Ew & _) & _). rewrite Ew, (living_snoc d w HD). destruct w; lia.
      * destruct Cu as ((_ & _ & Ew) & _). rewrite Ew, (living_dead d HD). lia.
      * destruct Cu as (_ & _ & Ew & _). rewrite Ew, (living_dead d HD). lia.
Qed.

Theorem serial_polls ls s : serial ls s -> quiet s -> living s = if polling_wanted s then 1 else 0.
Proof.
  intros H Q. destruct (bounds ls) as (M & I & F). pose proof (serial_inv M I ls s H F) as V. unfold living.
  destruct V as [d O HD (_ & _ & Ew) Fc Wa|d w cs c0 t O HD (_ & _ & Ew & _ & Nw & _) Ec Fc Wh _ _|d cs c O HD Ec Fc As Cu].
  - rewrite Ew, (living_dead d HD), Wa. reflexivity.
  - rewrite Ew, (living_snoc d w HD), (wanted_snoc s cs c0 Ec), Wh. destruct w; auto. now destruct Nw.
  - exfalso. unfold quiet in Q. rewrite Ec, Forall_app in Q. destruct Q as [_ Q]. inversion Q as [|? ? (t & Et) _]; subst. unfold current in Cu. now rewrite Et in Cu.
Qed.

Theorem serial_time M I ls s c : serial ls s -> Forall (within M I) ls -> In c (calls s) ->
  match ca_pc c with Returned t => ca_begin c <= t <= ca_begin c + (M + I) | _ => now s <= ca_begin c + (M + I) end.
Proof.
  intros H F Hc. pose proof (serial_inv M I ls s H F) as V.
  assert (T : forall cs, Forall (fine M I) cs -> In c cs -> match ca_pc c with Returned t => ca_begin c <= t <= ca_begin c + (M + I) | _ => now s <= ca_begin c + (M + I) end).
  { intros cs Fc Hi. rewrite Forall_forall in Fc. destruct (Fc c Hi) as (t & -> & B). exact B. }
  destruct V as [d O HD _ Fc _|d w cs c0 t O HD _ Ec Fc _ _ _|d cs c0 O HD Ec Fc As Cu]; [exact (T _ Fc Hc)|exact (T _ Fc Hc)|].
  rewrite Ec in Hc. apply in_app_iff in Hc as [Hc|[<-|[]]]; [exact (T _ Fc Hc)|]. unfold current in Cu. destruct (ca_pc c0); try contradiction; flat; lia.
Qed.

Theorem serial_fresh M I ls s cs c i t : serial ls s -> Forall (within M I) ls -> quiet s -> calls s = cs ++ [c] -> ca_what c = Start i -> ca_pc c = Returned t ->
  now s = t \/ exists b, In b (polls s) /\ t <= b <= now s /\ now s <= b + (M + i).
Proof.
  intros H F Q Ec Wh Pt. pose proof (serial_inv M I ls s H F) as V.
  destruct V as [d O HD _ Fc Wa|d w cs1 c1 t1 O HD On Ec1 Fc Wh1 Pt1 (Ft & Fr)|d cs1 c1 O HD Ec1 Fc As Cu].
  - rewrite (wanted_snoc s cs c Ec), Wh in Wa. discriminate.
  - rewrite Ec in Ec1. apply app_inj_tail in Ec1 as [_ <-]. rewrite Wh in Wh1. injection Wh1 as ->. rewrite Pt in Pt1. injection Pt1 as ->.
    destruct w as [|n|n|]; [exact Fr| | |contradiction]; right; destruct Fr as (b & Hb & B1 & B2); exists b; repeat split; auto; lia.
  - exfalso. rewrite Ec in Ec1. apply app_inj_tail in Ec1 as [_ <-]. unfold current in Cu. now rewrite Pt in Cu.
Qed.

Lemma fine_waits M I s cs : Forall (fine M I) cs -> forallb (waits s) cs = true.
Proof. intros F. apply forallb_forall. intros x Hx. rewrite Forall_forall in F. destruct (F x Hx) as (t & E & _). unfold waits. now rewrite E. Qed.
Theorem serial_alive ls s : serial ls s -> exists l s', (forall c, l <> Call c) /\ (forall w c, l <> Inside w c) /\ step l s = Some s'.
Proof.
  intros H. destruct (bounds ls) as (M & I & F). pose proof (serial_inv M I ls s H F) as V.
  assert (Ho : over s = None) by (destruct V; auto).
  assert (W : forall d w, dead_list d -> workers s = d ++ [w] -> (exists l s', (forall c, l <> Call c) /\ (forall w c, l <> Inside w c) /\ step l s = Some s') \/ w = WEnded \/ exists y, later w = Some y).
  { intros d w HD Ew. destruct w as [|[|n]|[|n]|]; cbn; eauto; left; exists (Work (length d) 0); eexists; (split; [discriminate|]; split; [discriminate|]);
      unfold step; rewrite Ho; unfold poll; rewrite Ew, nth_last; reflexivity. }
  assert (T : forall r, forallb (waits s) (calls s) = true -> all_later (workers s) = Some r -> exists l s', (forall c, l <> Call c) /\ (forall w c, l <> Inside w c) /\ step l s = Some s').
  { intros r E1 E2. exists Tick. eexists. split; [discriminate|]. split; [discriminate|]. unfold step. rewrite Ho, E1, E2. reflexivity. }
  destruct V as [d O HD (_ & _ & Ew) Fc _|d w cs c0 t O HD (_ & _ & Ew & _ & Nw & _) Ec Fc _ _ _|d cs c O HD Ec Fc As Cu].
  - apply (T d); [apply (fine_waits M I); auto|]. rewrite Ew. apply dead_later; auto.
  - destruct (W d w HD Ew) as [K|[K|(y & K)]]; [exact K|contradiction|]. apply (T (d ++ [y])); [apply (fine_waits M I); auto|]. rewrite Ew, snoc_later, K; auto.
  - assert (G : forall s', go (length cs) c s = Some s' -> exists l s', (forall c, l <> Call c) /\ (forall w c, l <> Inside w c) /\ step l s = Some s').
    { intros s' E. exists (Do (length cs)), s'. split; [discriminate|]. split; [discriminate|]. unfold step. rewrite Ho, Ec, nth_last. exact E. }
    unfold current in Cu. unfold go in G. destruct (ca_pc c) as [| | |j|i| |t|] eqn:Epc; try contradiction; try (eapply G; reflexivity).
    + destruct Cu as (_ & w & _ & Th & _). rewrite Th in G. eapply G; reflexivity.
    + destruct Cu as (-> & w & (_ & _ & Ew & _) & _). rewrite Ew, nth_last in G. destruct (W d w HD Ew) as [K|[->|(y & K)]]; [exact K|eapply G; reflexivity|].
      destruct w as [|n|n|]; try discriminate K; try (eapply G; reflexivity); apply (T (d ++ [y])); try (rewrite Ew, snoc_later, K; auto);
        (rewrite Ec, forallb_app, (fine_waits M I s cs Fc); cbn; unfold waits; rewrite Epc, Ew, nth_last; reflexivity).
Qed.

(** * What goes wrong *)
Lemma run_app : forall a b s, run (a ++ b) s = match run a s with Some s' => run b s' | None => None end.
Proof. induction a as [|l a IH]; intros b s; cbn; auto. destruct (step l s); auto. Qed.
Lemma run_serial b : forall ls s, (forall l, In l ls -> (forall c, l <> Call c) /\ (forall w c, l <> Inside w c)) -> serial b s -> forall s', run ls s = Some s' -> serial (b ++ ls) s'.
Proof.
  intros ls. revert b. induction ls as [|l ls IH]; intros b s N Hs s' R; cbn [run] in R.
  - injection R as <-. now rewrite app_nil_r.
  - destruct (step l s) as [s1|] eqn:E; [|discriminate]. change (l :: ls) with ([l] ++ ls). rewrite app_assoc. apply (IH _ s1); auto.
    + intros x Hx. apply N. now right.
    + destruct (N l (or_introl eq_refl)) as [N1 N2]. apply (serial_step b s l s1 Hs E); [|exact N2]. intros c Ec. destruct (N1 c Ec).
Qed.

Definition started (i : nat) : list label := [Call (Start i); Do 0; Do 0; Do 0].
Lemma found (P : state -> Prop) ls : match run ls state0 with Some s => P s | None => False end -> exists s, run ls state0 = Some s /\ P s.
Proof. destruct (run ls state0) as [s|]; [|contradiction]. intros H. exists s. auto. Qed.
Theorem two_stops : exists ls s, run ls state0 = Some s /\ (forall w c, ~ In (Inside w c) ls) /\ map ca_what (calls s) = [Start 5; Stop; Stop] /\ over s = Some Undefined.
Proof.
  exists (started 5 ++ [Call Stop; Call Stop; Do 1; Do 2; Do 1; Do 2; Do 1; Do 2]).
  edestruct (found (fun s => map ca_what (calls s) = [Start 5; Stop; Stop] /\ over s = Some Undefined)) as (s & R & H); [|exists s; split; [exact R|]; split; [|exact H]; intros w c; cbn; intuition discriminate].
  vm_compute. auto.
Qed.
Theorem stop_in_start : exists ls s, run ls state0 = Some s /\ (forall w c, ~ In (Inside w c) ls) /\ map ca_what (calls s) = [Start 5; Stop; Destroy] /\ nth_error (map ca_pc (calls s)) 1 = Some Threw /\
  over s = Some Terminated.
Proof.
  exists [Call (Start 5); Do 0; Do 0; Call Stop; Do 1; Do 1; Do 1; Do 0; Work 0 0; Call Destroy; Do 2].
  edestruct (found (fun s => map ca_what (calls s) = [Start 5; Stop; Destroy] /\ nth_error (map ca_pc (calls s)) 1 = Some Threw /\ over s = Some Terminated)) as (s & R & H);
    [|exists s; split; [exact R|]; split; [|exact H]; intros w c; cbn; intuition discriminate].
  vm_compute. auto.
Qed.
Theorem two_starts : exists ls s, run ls state0 = Some s /\ (forall w c, ~ In (Inside w c) ls) /\ map ca_what (calls s) = [Start 5; Start 7] /\ over s = Some Terminated.
Proof.
  exists [Call (Start 5); Call (Start 7); Do 0; Do 1; Do 0; Do 1; Do 0; Do 1].
  edestruct (found (fun s => map ca_what (calls s) = [Start 5; Start 7] /\ over s = Some Terminated)) as (s & R & H); [|exists s; split; [exact R|]; split; [|exact H]; intros w c; cbn; intuition discriminate].
  vm_compute. auto.
Qed.
Theorem stop_inside : exists ls s, run ls state0 = Some s /\ map ca_what (calls s) = [Start 5] /\ Forall returned (calls s) /\ over s = Some Terminated.
Proof.
  exists (started 5 ++ [Work 0 3; Inside 0 Stop]). apply (found (fun s => map ca_what (calls s) = [Start 5] /\ Forall returned (calls s) /\ over s = Some Terminated)).
  vm_compute. repeat split. constructor; [exists 0; reflexivity|constructor].
Qed.

(** Stopping takes as long as the interval, although nothing is polled. *)
Lemma pass_sleep c0 c1 ps k : forall m t, run (repeat Tick m)
  {| now := t; on := false; interval := k; thread := Some 0; workers := [WSleep m];
     calls := [{| ca_what := c0; ca_begin := 0; ca_pc := Returned 0 |}; {| ca_what := c1; ca_begin := 0; ca_pc := InJoin 0 |}]; polls := ps; over := None |}
  = Some {| now := t + m; on := false; interval := k; thread := Some 0; workers := [WSleep 0];
     calls := [{| ca_what := c0; ca_begin := 0; ca_pc := Returned 0 |}; {| ca_what := c1; ca_begin := 0; ca_pc := InJoin 0 |}]; polls := ps; over := None |}.
Proof.
  induction m as [|m IH]; intros t; [cbn; now rewrite Nat.add_0_r|]. cbn [repeat run]. unfold step at 1. cbn [over calls forallb waits ca_pc workers nth_error all_later later andb].
  cbn [now on interval thread polls]. rewrite IH. do 2 f_equal. lia.
Qed.
Theorem slow_stop i : exists ls s c, serial ls s /\ Forall (within 0 i) ls /\ nth_error (calls s) 1 = Some c /\ ca_what c = Stop /\ ca_begin c = 0 /\ ca_pc c = Returned i /\ polls s = [0].
Proof.
  set (r := {| ca_what := Start i; ca_begin := 0; ca_pc := Returned 0 |}).
  set (s1 := {| now := 0; on := true; interval := i; thread := Some 0; workers := [WSleep i]; calls := [r]; polls := [0]; over := None |}).
  assert (H1 : serial (([] ++ [Call (Start i)]) ++ [Do 0; Do 0; Do 0; Work 0 0; Work 0 0]) s1).
  { eapply run_serial; [intros l Hl; cbn in Hl; intuition (subst; discriminate)| |].
    - eapply serial_step; [apply serial_nil|reflexivity| |discriminate]. intros c _. constructor.
    - vm_compute. reflexivity. }
  set (s2 := {| now := 0; on := true; interval := i; thread := Some 0; workers := [WSleep i]; calls := [r; {| ca_what := Stop; ca_begin := 0; ca_pc := AtTest |}]; polls := [0]; over := None |}).
  assert (H2 : serial ((([] ++ [Call (Start i)]) ++ [Do 0; Do 0; Do 0; Work 0 0; Work 0 0]) ++ [Call Stop]) s2).
  { eapply serial_step; [exact H1|reflexivity| |discriminate]. intros c _. constructor; [exists 0; reflexivity|constructor]. }
  set (b := [Do 1; Do 1; Do 1] ++ repeat Tick i ++ [Work 0 0; Work 0 0; Do 1]).
  assert (R : run b s2 = Some {| now := i; on := false; interval := i; thread := None; workers := [WEnded]; calls := [r; {| ca_what := Stop; ca_begin := 0; ca_pc := Returned i |}]; polls := [0]; over := None |}).
  { unfold b. rewrite run_app. pose proof (pass_sleep (Start i) Stop [0] i i 0) as P. cbn [Nat.add] in P.
    replace (run [Do 1; Do 1; Do 1] s2) with (Some {| now := 0; on := false; interval := i; thread := Some 0; workers := [WSleep i];
       calls := [r; {| ca_what := Stop; ca_begin := 0; ca_pc := InJoin 0 |}]; polls := [0]; over := None |}) by (vm_compute; reflexivity).
    rewrite run_app. unfold r. rewrite P. vm_compute. reflexivity. }
  assert (N : forall l, In l b -> (forall c, l <> Call c) /\ (forall w c, l <> Inside w c)).
  { intros l Hl. unfold b in Hl. rewrite !in_app_iff in Hl. destruct Hl as [Hl|[Hl|Hl]]; [|apply repeat_spec in Hl; subst; split; discriminate|];
      cbn in Hl; intuition (subst; discriminate). }
  pose proof (run_serial _ b s2 N H2 _ R) as K. eexists _, _, _. split; [exact K|]. split; [|repeat split; reflexivity].
  unfold b. repeat (apply Forall_app; split); try (repeat constructor; cbn; lia). apply Forall_forall. intros l Hl. apply repeat_spec in Hl. subst. exact Logic.I.
Qed.
