From Coq Require Import List Arith NArith Ascii Bool Lia.
Import ListNotations.
From Verif Require Import Protocol_model UnixSystem_model UnixPass_model UnixPass_spec.

Section P.
Variable handle : msg -> option (option bytes).

Definition to (c : nat) (l : list (nat * msg)) : list msg := map snd (filter (fun e => fst e =? c) l).
Lemma to_app c a b : to c (a ++ b) = to c a ++ to c b.
Proof. unfold to. now rewrite filter_app, map_app. Qed.
Lemma to_one c c' m : to c [(c', m)] = if c' =? c then [m] else [].
Proof. unfold to. cbn. now destruct (c' =? c). Qed.

Definition survivors (l : list (nat * peer)) : list (nat * peer) :=
  map (fun e => (fst e, consumed (snd e))) (filter (fun e => negb (refused (snd e))) l).
Definition dropped (l : list (nat * peer)) : nat := length (filter (fun e => refused (snd e)) l).
Definition replies (l : list (nat * peer)) : list (nat * msg) := flat_map (fun e => map (pair (fst e)) (reply handle (snd e))) l.

Lemma serve_well todo : Forall (fun e => well_behaved (snd e)) todo -> forall kept free sent,
  serve_conns handle false todo kept free sent = (kept ++ survivors todo, free + dropped todo, sent ++ replies todo, true).
Proof.
  induction 1 as [|[c p] rest [Hd Hs] HF IH]; intros kept free sent; cbn [serve_conns].
  - unfold survivors, dropped, replies. cbn. now rewrite !app_nil_r, Nat.add_0_r.
  - cbn [snd] in *. unfold survivors, dropped, replies. cbn [filter flat_map]. unfold refused, reply, respond. cbn [fst snd].
    destruct (p_in p) as [|[m| |] r] eqn:Ei.
    + rewrite IH. cbn [negb map app fst snd]. f_equal. f_equal. f_equal. rewrite <- app_assoc. cbn. f_equal. f_equal. f_equal.
      unfold consumed. rewrite Ei. destruct p; cbn in *; congruence.
    + replace {| p_in := r; p_deaf := p_deaf p |} with (consumed p) by (unfold consumed; now rewrite Ei).
      rewrite Hd. destruct (handle m) as [[d|]|]; rewrite IH; cbn [negb map app fst snd]; rewrite <- ?app_assoc; reflexivity.
    + rewrite IH. cbn [negb map app fst snd length]. rewrite Nat.add_succ_r. reflexivity.
    + exfalso. eapply Hs. reflexivity.
Qed.

Lemma send_all_well m conns : Forall (fun e => p_deaf (snd e) = false) conns -> forall sent,
  send_all m conns sent = (sent ++ map (fun e => (fst e, m)) conns, true).
Proof.
  induction 1 as [|[c p] rest H HF IH]; intros sent; cbn; [now rewrite app_nil_r|]. cbn in H. rewrite H, IH, <- app_assoc. reflexivity.
Qed.
Definition as_msg (b : bytes * bytes) : msg := {| req_id := 0; ep_name := fst b; payload := snd b |}.
Lemma cast_all_well conns : Forall (fun e => p_deaf (snd e) = false) conns -> forall rq sent,
  cast_all rq conns sent = ([], sent ++ flat_map (fun b => map (fun e => (fst e, as_msg b)) conns) rq, true).
Proof.
  intros H rq. induction rq as [|[n d] rq IH]; intros sent; cbn [cast_all flat_map]; [now rewrite app_nil_r|].
  rewrite (send_all_well _ _ H), IH, <- app_assoc. reflexivity.
Qed.

Lemma survivors_well l : Forall (fun e => well_behaved (snd e)) l -> Forall (fun e => p_deaf (snd e) = false) (survivors l).
Proof.
  intros H. unfold survivors. rewrite Forall_forall in *. intros e He. apply in_map_iff in He. destruct He as (e0 & <- & He0).
  apply filter_In in He0. destruct (H _ (proj1 He0)) as [Hd _]. exact Hd.
Qed.

Lemma to_replies c p l : NoDup (map fst l) -> In (c, p) l -> to c (replies l) = reply handle p.
Proof.
  induction l as [|[c' p'] l IH]; [contradiction|]. cbn [map fst replies flat_map snd]. intros Hn Hin. inversion Hn as [|? ? Hni Hn']; subst.
  change (flat_map (fun e : nat * peer => map (pair (fst e)) (reply handle (snd e))) l) with (replies l). rewrite to_app.
  assert (one : forall k, to c (map (pair k) (reply handle p')) = if k =? c then reply handle p' else []).
  { intros k. unfold reply. destruct (p_in p') as [|[m| |] r]; cbn; try (now destruct (k =? c)).
    destruct (handle m) as [[d|]|]; cbn; try (now destruct (k =? c)). }
  rewrite one. destruct Hin as [Hin|Hin].
  - injection Hin as -> ->. rewrite Nat.eqb_refl. assert (to c (replies l) = []) as ->; [|apply app_nil_r].
    clear IH Hn Hn'. induction l as [|[c2 p2] l IH]; [reflexivity|]. cbn [map fst replies flat_map snd In] in *.
    change (flat_map (fun e : nat * peer => map (pair (fst e)) (reply handle (snd e))) l) with (replies l). rewrite to_app, IH by tauto. rewrite app_nil_r.
    unfold reply. destruct (p_in p2) as [|[m| |] r]; cbn; try reflexivity. destruct (handle m) as [[d|]|]; cbn; try reflexivity.
    unfold to. cbn. destruct (Nat.eqb_spec c2 c); [exfalso; tauto|reflexivity].
  - destruct (Nat.eqb_spec c' c) as [->|Hne]; [|now rewrite IH].
    exfalso. apply Hni. apply in_map_iff. exists (c, p). auto.
Qed.

Lemma to_casts_in c m conns : NoDup (map fst conns) -> In c (map fst conns) -> to c (map (fun e : nat * peer => (fst e, m)) conns) = [m].
Proof.
  induction conns as [|[c' p'] l IH]; [contradiction|]. cbn [map fst]. intros Hn Hin. inversion Hn as [|? ? Hni Hn']; subst.
  match goal with |- context [(c', m) :: ?x] => change ((c', m) :: x) with ([(c', m)] ++ x) end. rewrite to_app, to_one. destruct Hin as [->|Hin].
  - rewrite Nat.eqb_refl. assert (to c (map (fun e : nat * peer => (fst e, m)) l) = []) as ->; [|reflexivity].
    clear IH Hn Hn'. induction l as [|[c2 p2] l IH]; [reflexivity|]. cbn [map fst]. match goal with |- context [(c2, m) :: ?x] => change ((c2, m) :: x) with ([(c2, m)] ++ x) end.
    cbn [map fst In] in Hni. rewrite to_app, to_one, IH by tauto. destruct (Nat.eqb_spec c2 c); [exfalso; tauto|reflexivity].
  - destruct (Nat.eqb_spec c' c) as [->|Hne]; [exfalso; tauto|]. now rewrite IH.
Qed.
Lemma to_casts_out c m conns : ~ In c (map fst conns) -> to c (map (fun e : nat * peer => (fst e, m)) conns) = [].
Proof.
  induction conns as [|[c' p'] l IH]; [reflexivity|]. cbn [map fst In]. intros Hni.
  match goal with |- context [(c', m) :: ?x] => change ((c', m) :: x) with ([(c', m)] ++ x) end. rewrite to_app, to_one, IH by tauto. destruct (Nat.eqb_spec c' c); [exfalso; tauto|reflexivity].
Qed.
Lemma to_flat_in c conns rq : NoDup (map fst conns) -> In c (map fst conns) ->
  to c (flat_map (fun b => map (fun e : nat * peer => (fst e, as_msg b)) conns) rq) = map as_msg rq.
Proof. intros H1 H2. induction rq as [|b rq IH]; [reflexivity|]. cbn [flat_map map]. now rewrite to_app, IH, to_casts_in. Qed.
Lemma to_flat_out c conns rq : ~ In c (map fst conns) ->
  to c (flat_map (fun b => map (fun e : nat * peer => (fst e, as_msg b)) conns) rq) = [].
Proof. intros H1. induction rq as [|b rq IH]; [reflexivity|]. cbn [flat_map map]. now rewrite to_app, IH, to_casts_out. Qed.

Lemma survivors_fst l x : In x (map fst (survivors l)) -> In x (map fst l).
Proof.
  unfold survivors. rewrite map_map. cbn. intros H. apply in_map_iff in H. destruct H as (e & <- & He). apply filter_In in He.
  apply in_map. tauto.
Qed.
Lemma survivors_nodup l : NoDup (map fst l) -> NoDup (map fst (survivors l)).
Proof.
  unfold survivors. rewrite map_map. cbn. induction l as [|e l IH]; cbn; [auto|]. intros H. inversion H as [|? ? Hni Hn]; subst.
  destruct (negb (refused (snd e))); cbn; auto. constructor; auto. intros Hin. apply Hni. apply in_map_iff in Hin.
  destruct Hin as (e' & Ee & He). apply filter_In in He. rewrite <- Ee. apply in_map. tauto.
Qed.

Lemma NoDup_app_intro {A} (a b : list A) : NoDup a -> NoDup b -> (forall x, In x a -> ~ In x b) -> NoDup (a ++ b).
Proof.
  intros Ha Hb H. induction Ha as [|x a Hx Ha IH]; [exact Hb|]. cbn. constructor.
  - intros C. apply in_app_or in C. destruct C as [C|C]; [auto|]. exact (H x (or_introl eq_refl) C).
  - apply IH. intros y Hy. apply H. now right.
Qed.
Definition newly (s : server) : list (nat * peer) := match v_backlog s with [] => [] | b :: _ => [b] end.

Lemma nodup_app_l {A} (a b : list A) : NoDup (a ++ b) -> NoDup a.
Proof. induction a as [|x a IH]; cbn; intros H; [constructor|]. inversion H; subst. constructor; [|auto]. intros C. apply H2. apply in_or_app. now left. Qed.

(** What a pass does when all connected peers behave, whatever else they send. *)
Theorem pass_serves s : distinct s -> can_accept s -> Forall (fun e => well_behaved (snd e)) (v_conns s) ->
  Forall (fun e => p_deaf (snd e) = false) (v_backlog s) ->
  exists s', pass handle false s = Done s' /\ v_backlog s' = tl (v_backlog s) /\ v_queue s' = [] /\
    (forall c p, In (c, p) (v_conns s) ->
       sent_to c s' = sent_to c s ++ reply handle p ++ (if refused p then [] else casts s) /\
       (if refused p then ~ In c (map fst (v_conns s')) else In (c, consumed p) (v_conns s'))) /\
    (forall b bs, v_backlog s = b :: bs -> In b (v_conns s')).
Proof.
  intros HD HA HW HB.
  assert (Hn : NoDup (map fst (v_conns s))) by (unfold distinct in HD; rewrite map_app in HD; eapply nodup_app_l; eauto).
  assert (Hnew : NoDup (map fst (survivors (v_conns s) ++ newly s)) /\ forall c, In c (map fst (v_conns s)) -> ~ In c (map fst (newly s))).
  { unfold distinct in HD. unfold newly. destruct (v_backlog s) as [|b bs].
    - rewrite app_nil_r. split; [now apply survivors_nodup|]. auto.
    - rewrite map_app in HD |- *. split.
      + apply NoDup_app_intro; auto.
        * now apply survivors_nodup.
        * cbn. constructor; [auto|constructor].
        * intros x Hx [<-|[]]. apply survivors_fst in Hx. clear -HD Hx. induction (map fst (v_conns s)) as [|y l IH]; [contradiction|].
          cbn in HD. inversion HD; subst. destruct Hx as [->|Hx]; [|auto]. apply H1. apply in_or_app. right. now left.
      + intros c Hc [<-|[]]. clear -HD Hc. induction (map fst (v_conns s)) as [|y l IH]; [contradiction|].
        cbn in HD. inversion HD; subst. destruct Hc as [->|Hc]; [|auto]. apply H1. apply in_or_app. right. now left. }
  destruct Hnew as [Hnd Hdis].
  assert (Hdeaf : Forall (fun e => p_deaf (snd e) = false) (survivors (v_conns s) ++ newly s)).
  { apply Forall_app. split; [now apply survivors_well|]. unfold newly. destruct (v_backlog s); constructor; [now inversion HB|constructor]. }
  assert (HP : exists f, pass handle false s = Done {| v_conns := survivors (v_conns s) ++ newly s; v_backlog := tl (v_backlog s); v_free := f;
      v_queue := []; v_sent := (v_sent s ++ replies (v_conns s)) ++
        flat_map (fun b => map (fun e : nat * peer => (fst e, as_msg b)) (survivors (v_conns s) ++ newly s)) (rev (v_queue s)) |}).
  { unfold pass, newly in *. destruct (v_backlog s) as [|b bs] eqn:Eb.
    - rewrite (serve_well _ HW). cbn [app]. rewrite app_nil_r in *. rewrite (cast_all_well _ Hdeaf). eexists. reflexivity.
    - destruct HA as [HA|HA]; [congruence|]. destruct (v_free s) as [|f]; [congruence|]. rewrite (serve_well _ HW). cbn [app].
      rewrite (cast_all_well _ Hdeaf). eexists. reflexivity. }
  destruct HP as (f & HP). eexists. split; [exact HP|]. cbn [v_backlog v_queue v_conns]. split; [reflexivity|]. split; [reflexivity|]. split.
  - intros c p Hin. unfold sent_to at 1. cbn [v_sent]. change (map snd (filter (fun e : nat * msg => fst e =? c) ?l)) with (to c l).
    assert (Hc : In c (map fst (v_conns s))) by (apply in_map_iff; exists (c, p); auto).
    rewrite !to_app, (to_replies c p) by assumption. change (to c (v_sent s)) with (sent_to c s). rewrite <- app_assoc.
    assert (Href : refused p = true -> ~ In c (map fst (survivors (v_conns s) ++ newly s))).
    { intros Hr Hin2. rewrite map_app in Hin2. apply in_app_or in Hin2. destruct Hin2 as [Hin2|Hin2]; [|now apply (Hdis c)].
      unfold survivors in Hin2. rewrite map_map in Hin2. cbn in Hin2. apply in_map_iff in Hin2. destruct Hin2 as ([c2 p2] & Ec & H2). cbn in Ec. subst c2.
      apply filter_In in H2. destruct H2 as [H2 H3]. cbn in H3.
      assert (p2 = p); [|subst; rewrite Hr in H3; discriminate]. clear -Hn Hin H2. induction (v_conns s) as [|[c3 p3] l IH]; [contradiction|].
      cbn in Hn. inversion Hn; subst. destruct Hin as [E1|Hin], H2 as [E2|H2]; auto; try congruence.
      - injection E1 as -> ->. exfalso. apply H1. apply in_map_iff. exists (c, p2). auto.
      - injection E2 as -> ->. exfalso. apply H1. apply in_map_iff. exists (c, p). auto. }
    destruct (refused p) eqn:Er.
    + split; [|auto]. rewrite to_flat_out by auto. reflexivity.
    + assert (Hs : In (c, consumed p) (survivors (v_conns s))).
      { unfold survivors. apply in_map_iff. exists (c, p). split; [reflexivity|]. apply filter_In. cbn. now rewrite Er. }
      split; [|apply in_or_app; now left]. rewrite to_flat_in; auto. apply in_map_iff. exists (c, consumed p). split; [reflexivity|].
      apply in_or_app. now left.
  - intros b bs Eb. unfold newly. rewrite Eb. apply in_or_app. right. now left.
Qed.

(** Without a free descriptor a waiting client stops the service for everybody. *)
Theorem accept_failure_starves s : v_free s = 0 -> v_backlog s <> [] -> forall n, passes handle n s = Done s.
Proof.
  intros Hf Hb n. induction n as [|n IH]; cbn [passes]; [reflexivity|].
  unfold pass. destruct (v_backlog s) eqn:E; [congruence|]. rewrite Hf. exact IH.
Qed.

Lemma serve_blocks all todo : forall kept free sent c p r, In (c, p) todo -> p_in p = Stalled :: r ->
  exists k f t, serve_conns handle all todo kept free sent = (k, f, t, false).
Proof.
  induction todo as [|[c' p'] rest IH]; intros kept free sent c p r Hin Hp; [contradiction|]. cbn [serve_conns].
  destruct Hin as [Hin|Hin].
  - injection Hin as -> ->. rewrite Hp. eauto.
  - destruct (p_in p') as [|[m| |] r']; eauto.
    + destruct all; eauto.
    + destruct (respond handle m); eauto. destruct (p_deaf p'); eauto.
Qed.

(** A client that stops in the middle of a message stops the server. *)
Theorem stalled_blocks sig s c p r : In (c, p) (v_conns s) -> p_in p = Stalled :: r -> can_accept s ->
  exists s', pass handle sig s = Blocked s'.
Proof.
  intros Hin Hp HA. unfold pass. destruct (v_backlog s) as [|b bs] eqn:Eb.
  - destruct sig; [eauto|]. destruct (serve_blocks false (v_conns s) [] (v_free s) (v_sent s) c p r Hin Hp) as (k & f & t & ->). eauto.
  - destruct HA as [HA|HA]; [congruence|]. destruct (v_free s) as [|f]; [congruence|].
    destruct (serve_blocks sig (v_conns s) [] f (v_sent s) c p r Hin Hp) as (k & f' & t & ->). eauto.
Qed.

(** A client that does not read stops the server at the next broadcast. *)
Theorem deaf_blocks s c p : In (c, p) (v_conns s) -> p_in p = [] -> p_deaf p = true -> v_queue s <> [] -> can_accept s ->
  exists s', pass handle false s = Blocked s'.
Proof.
  intros Hin Hp Hd Hq HA.
  assert (Hserve : forall todo kept free sent, In (c, p) todo \/ In (c, p) kept ->
     exists k f t b, serve_conns handle false todo kept free sent = (k, f, t, b) /\ (b = true -> In (c, p) k)).
  { induction todo as [|[c' p'] rest IH]; intros kept free sent Hc; cbn [serve_conns].
    - do 4 eexists. split; [reflexivity|]. intros _. destruct Hc; [contradiction|assumption].
    - destruct Hc as [[Hc|Hc]|Hc].
      + injection Hc as -> ->. rewrite Hp. apply IH. right. apply in_or_app. right. now left.
      + destruct (p_in p') as [|[m| |] r']; eauto.
        * destruct (respond handle m); eauto. destruct (p_deaf p'); eauto. do 4 eexists. split; [reflexivity|]. discriminate.
        * do 4 eexists. split; [reflexivity|]. discriminate.
      + assert (H' : forall e, In (c, p) rest \/ In (c, p) (kept ++ [e])) by (intros e; right; apply in_or_app; now left).
        destruct (p_in p') as [|[m| |] r']; eauto.
        * destruct (respond handle m); eauto. destruct (p_deaf p'); eauto. do 4 eexists. split; [reflexivity|]. discriminate.
        * do 4 eexists. split; [reflexivity|]. discriminate. }
  assert (Hall : forall m conns sent, In (c, p) conns -> exists t, send_all m conns sent = (t, false)).
  { intros m conns. induction conns as [|[c' p'] rest IH]; intros sent Hc; [contradiction|]. cbn. destruct Hc as [Hc|Hc].
    - injection Hc as -> ->. rewrite Hd. eauto.
    - destruct (p_deaf p'); eauto. }
  assert (Hcast : forall conns sent, In (c, p) conns -> exists rq t, cast_all (rev (v_queue s)) conns sent = (rq, t, false)).
  { intros conns sent Hc. destruct (rev (v_queue s)) as [|[n d] rq] eqn:Er.
    - apply (f_equal (@length _)) in Er. rewrite rev_length in Er. destruct (v_queue s); [congruence|discriminate].
    - cbn. destruct (Hall {| req_id := 0; ep_name := n; payload := d |} conns sent Hc) as (t & ->). eauto. }
  unfold pass. destruct (v_backlog s) as [|b bs] eqn:Eb.
  - destruct (Hserve (v_conns s) [] (v_free s) (v_sent s) (or_introl Hin)) as (k & f & t & b & -> & Hb). destruct b; [|eauto].
    destruct (Hcast (k ++ []) t) as (rq & t2 & ->); [|eauto]. rewrite app_nil_r. auto.
  - destruct HA as [HA|HA]; [congruence|]. destruct (v_free s) as [|f]; [congruence|].
    destruct (Hserve (v_conns s) [] f (v_sent s) (or_introl Hin)) as (k & f' & t & bb & -> & Hb). destruct bb; [|eauto].
    destruct (Hcast (k ++ [b]) t) as (rq & t2 & ->); [|eauto]. apply in_or_app. auto.
Qed.

(** A signal arriving during [select] while nobody is connecting blocks the server in [accept]. *)
Theorem signal_blocks s : v_backlog s = [] -> pass handle true s = Blocked s.
Proof. intros H. unfold pass. now rewrite H. Qed.
End P.

(** ** Nobody is lost, however a pass ends *)
Section K.
Variable handle : msg -> option (option bytes).
Lemma serve_kept : forall all todo kept free sent k f t b, serve_conns handle all todo kept free sent = (k, f, t, b) ->
  (forall x, In x kept -> In x k) /\
  (forall c p, In (c, p) todo -> refused p = false -> stays_with k c p) /\
  (forall c p', In (c, p') k -> In (c, p') kept \/ exists p, In (c, p) todo /\ (p' = p \/ p' = consumed p)) /\
  f + length k = free + length kept + length todo /\ exists more, t = sent ++ more.
Proof.
  intros all todo. induction todo as [|[c0 p0] rest IH]; intros kept free sent k f t b H; cbn [serve_conns] in H.
  - injection H as <- <- <- <-. cbn. split; [auto|]. split; [intros c p []|]. split; [auto|]. split; [lia|]. exists []. now rewrite app_nil_r.
  - assert (Stop : forall q, q = p0 \/ q = consumed p0 -> k = kept ++ (c0, q) :: rest -> f = free -> t = sent ->
      (forall x, In x kept -> In x k) /\ (forall c p, In (c, p) ((c0, p0) :: rest) -> refused p = false -> stays_with k c p) /\
      (forall c p', In (c, p') k -> In (c, p') kept \/ exists p, In (c, p) ((c0, p0) :: rest) /\ (p' = p \/ p' = consumed p)) /\
      f + length k = free + length kept + length ((c0, p0) :: rest) /\ exists more, t = sent ++ more).
    { intros q Q -> -> ->. split; [intros x I; apply in_or_app; now left|]. split; [|split; [|split]].
      - intros c p [I|I] _; [injection I as <- <-; exists q|exists p]; (split; [apply in_or_app; right|auto]); [now left|now right].
      - intros c p' I. apply in_app_or in I. destruct I as [I|[I|I]]; [now left|injection I as <- <-; right; exists p0; split; [now left|exact Q]|right; exists p'; split; [now right|now left]].
      - rewrite app_length. cbn. lia.
      - exists []. now rewrite app_nil_r. }
    assert (Go : forall q more0, q = p0 \/ q = consumed p0 -> serve_conns handle all rest (kept ++ [(c0, q)]) free (sent ++ more0) = (k, f, t, b) ->
      (forall x, In x kept -> In x k) /\ (forall c p, In (c, p) ((c0, p0) :: rest) -> refused p = false -> stays_with k c p) /\
      (forall c p', In (c, p') k -> In (c, p') kept \/ exists p, In (c, p) ((c0, p0) :: rest) /\ (p' = p \/ p' = consumed p)) /\
      f + length k = free + length kept + length ((c0, p0) :: rest) /\ exists more, t = sent ++ more).
    { intros q m0 Q G. apply IH in G. destruct G as (G1 & G2 & G3 & G4 & (m1 & ->)). split; [intros x I; apply G1, in_or_app; now left|]. split; [|split; [|split]].
      - intros c p [I|I] R; [injection I as <- <-; exists q; split; [apply G1, in_or_app; right; now left|exact Q]|exact (G2 c p I R)].
      - intros c p' I. destruct (G3 _ _ I) as [J|(p & J & E)].
        + apply in_app_or in J. destruct J as [J|[J|[]]]; [now left|]. injection J as <- <-. right. exists p0. split; [now left|exact Q].
        + right. exists p. split; [now right|exact E].
      - rewrite G4, app_length. cbn. lia.
      - exists (m0 ++ m1). now rewrite app_assoc. }
    destruct (p_in p0) as [|[m| |] r] eqn:Ei.
    + destruct all; [injection H as <- <- <- <-; apply (Stop p0); auto|]. apply (Go p0 []); [now left|]. now rewrite app_nil_r.
    + assert (Q : {| p_in := r; p_deaf := p_deaf p0 |} = consumed p0) by (unfold consumed; now rewrite Ei). rewrite Q in H.
      destruct (respond handle m) as [a|].
      * destruct (p_deaf p0); [injection H as <- <- <- <-; apply (Stop (consumed p0)); auto|]. exact (Go _ _ (or_intror eq_refl) H).
      * apply (Go (consumed p0) []); [now right|]. now rewrite app_nil_r.
    + apply IH in H. destruct H as (G1 & G2 & G3 & G4 & G5). split; [exact G1|]. split; [|split; [|split; [cbn; lia|exact G5]]].
      * intros c p [I|I] R; [injection I as <- <-; unfold refused in R; rewrite Ei in R; discriminate R|exact (G2 c p I R)].
      * intros c p' I. destruct (G3 _ _ I) as [J|(p & J & E)]; [now left|right; exists p; split; [now right|exact E]].
    + injection H as <- <- <- <-. apply (Stop p0); auto.
Qed.
Lemma send_more : forall m conns sent t b, send_all m conns sent = (t, b) -> exists more, t = sent ++ more.
Proof.
  intros m conns. induction conns as [|[c p] conns IH]; intros sent t b H; cbn in H; [injection H as <- <-; exists []; now rewrite app_nil_r|].
  destruct (p_deaf p); [injection H as <- <-; exists []; now rewrite app_nil_r|]. apply IH in H. destruct H as (more & ->). eexists. rewrite <- app_assoc. reflexivity.
Qed.
Lemma cast_more : forall rq conns sent q t b, cast_all rq conns sent = (q, t, b) -> exists more, t = sent ++ more.
Proof.
  induction rq as [|[n d] rq IH]; intros conns sent q t b H; cbn in H; [injection H as <- <- <-; exists []; now rewrite app_nil_r|].
  destruct (send_all _ conns sent) as [t1 b1] eqn:E. destruct (send_more _ _ _ _ _ E) as (m1 & ->). destruct b1.
  - apply IH in H. destruct H as (m2 & ->). eexists. rewrite <- app_assoc. reflexivity.
  - injection H as <- <- <-. eauto.
Qed.
(** However a pass ends: nobody is lost but clients that are refused, nobody passes another in the line, no descriptor is lost, what was sent stays sent. *)
Lemma pass_keeps : forall sig s s', pass handle sig s = Done s' \/ pass handle sig s = Blocked s' ->
  (exists a, v_backlog s = a ++ v_backlog s' /\ length a <= 1 /\ forall x, In x a -> In x (v_conns s')) /\
  (forall c p, In (c, p) (v_conns s) -> refused p = false -> stays_with (v_conns s') c p) /\
  (forall c p', In (c, p') (v_conns s') -> In (c, p') (v_backlog s) \/ exists p, In (c, p) (v_conns s) /\ (p' = p \/ p' = consumed p)) /\
  v_free s' + length (v_conns s') = v_free s + length (v_conns s) /\ exists more, v_sent s' = v_sent s ++ more.
Proof.
  intros sig s s' H.
  assert (Same : s' = s -> (exists a, v_backlog s = a ++ v_backlog s' /\ length a <= 1 /\ forall x, In x a -> In x (v_conns s')) /\
    (forall c p, In (c, p) (v_conns s) -> refused p = false -> stays_with (v_conns s') c p) /\
    (forall c p', In (c, p') (v_conns s') -> In (c, p') (v_backlog s) \/ exists p, In (c, p) (v_conns s) /\ (p' = p \/ p' = consumed p)) /\
    v_free s' + length (v_conns s') = v_free s + length (v_conns s) /\ exists more, v_sent s' = v_sent s ++ more).
  { intros ->. split; [exists []; split; [reflexivity|]; split; [cbn; lia|intros x []]|]. split; [intros c p I _; exists p; auto|]. split; [intros c p I; right; exists p; auto|].
    split; [reflexivity|]. exists []. now rewrite app_nil_r. }
  assert (Rest : forall new bl fr, v_backlog s = new ++ bl -> length new <= 1 -> fr + length new = v_free s ->
    (exists k f t b, serve_conns handle sig (v_conns s) [] fr (v_sent s) = (k, f, t, b) /\ v_conns s' = k ++ new /\ v_backlog s' = bl /\ v_free s' = f /\ exists more, v_sent s' = t ++ more) ->
    (exists a, v_backlog s = a ++ v_backlog s' /\ length a <= 1 /\ forall x, In x a -> In x (v_conns s')) /\
    (forall c p, In (c, p) (v_conns s) -> refused p = false -> stays_with (v_conns s') c p) /\
    (forall c p', In (c, p') (v_conns s') -> In (c, p') (v_backlog s) \/ exists p, In (c, p) (v_conns s) /\ (p' = p \/ p' = consumed p)) /\
    v_free s' + length (v_conns s') = v_free s + length (v_conns s) /\ exists more, v_sent s' = v_sent s ++ more).
  { intros new bl fr B L F (k & f & t & b & E & Ec & Eb & Ef & (m2 & Es)). apply serve_kept in E. destruct E as (_ & G2 & G3 & G4 & (m1 & ->)).
    rewrite Ec, Eb, Ef, Es. split; [exists new; split; [exact B|]; split; [exact L|intros x I; apply in_or_app; now right]|]. split; [|split; [|split]].
    - intros c p I R. destruct (G2 c p I R) as (p' & J & Q). exists p'. split; [apply in_or_app; now left|exact Q].
    - intros c p' I. apply in_app_or in I. destruct I as [I|I]; [|left; rewrite B; apply in_or_app; now left]. destruct (G3 _ _ I) as [[]|J]. now right.
    - rewrite app_length. cbn in G4. lia.
    - exists (m1 ++ m2). now rewrite app_assoc. }
  unfold pass in H. cbv zeta in H. destruct (v_backlog s) as [|x bl] eqn:Eb.
  - destruct sig; [destruct H as [H|H]; [discriminate H|injection H as <-; apply Same; reflexivity]|].
    apply (Rest [] [] (v_free s)); [reflexivity|cbn; lia|cbn; lia|].
    destruct (serve_conns handle false (v_conns s) [] (v_free s) (v_sent s)) as [[[k f] t] b]. exists k, f, t, b. split; [reflexivity|].
    destruct b; [|destruct H as [H|H]; [discriminate H|injection H as <-; cbn; repeat split; exists []; now rewrite app_nil_r]].
    destruct (cast_all _ _ _) as [[rq t2] b2] eqn:C. apply cast_more in C. destruct b2; (destruct H as [H|H]; [|]; try discriminate H; injection H as <-; cbn; auto).
  - destruct (v_free s) as [|f0] eqn:Ef; [destruct H as [H|H]; [injection H as <-|discriminate H]; apply Same; reflexivity|].
    apply (Rest [x] bl f0); [reflexivity|cbn; lia|cbn; lia|].
    destruct (serve_conns handle sig (v_conns s) [] f0 (v_sent s)) as [[[k f] t] b]. exists k, f, t, b. split; [reflexivity|].
    destruct b; [|destruct H as [H|H]; [discriminate H|injection H as <-; cbn; repeat split; exists []; now rewrite app_nil_r]].
    destruct (cast_all _ _ _) as [[rq t2] b2] eqn:C. apply cast_more in C. destruct b2; (destruct H as [H|H]; [|]; try discriminate H; injection H as <-; cbn; auto).
Qed.
End K.

Section W.
Variable handle : msg -> option (option bytes).
Lemma send_flag : forall conns m sent, snd (send_all m conns sent) = negb (existsb (fun e => p_deaf (snd e)) conns).
Proof. induction conns as [|[c p] conns IH]; intros m sent; [reflexivity|]. cbn. destruct (p_deaf p); [reflexivity|apply IH]. Qed.
Lemma cast_true : forall rq conns sent, existsb (fun e => p_deaf (snd e)) conns = false -> snd (cast_all rq conns sent) = true.
Proof.
  induction rq as [|[n d] rq IH]; intros conns sent E; [reflexivity|]. cbn. assert (F := send_flag conns {| req_id := 0; ep_name := n; payload := d |} sent).
  destruct (send_all _ conns sent) as [t b]. cbn in F. rewrite E in F. cbn in F. subst b. apply IH. exact E.
Qed.
Lemma cast_false : forall rq conns sent q t, cast_all rq conns sent = (q, t, false) -> exists x, rq = x :: q.
Proof.
  intros rq conns sent q t H. destruct rq as [|[n d] rq]; cbn in H; [discriminate H|]. exists (n, d). f_equal.
  assert (F := send_flag conns {| req_id := 0; ep_name := n; payload := d |} sent). destruct (send_all _ conns sent) as [t1 b]. cbn in F. destruct b.
  - symmetry in F. apply negb_true_iff in F. apply cast_true with (rq := rq) (sent := t1) in F. rewrite H in F. discriminate F.
  - now injection H as <- _.
Qed.
(** In a pass that blocks all broadcasts keep waiting but the one in whose sending it blocks: the one that is at the end of the queue. *)
Lemma blocked_waiting : forall sig s s', pass handle sig s = Blocked s' -> v_queue s' = v_queue s \/ exists b, v_queue s = v_queue s' ++ [b].
Proof.
  intros sig s s' H. unfold pass in H. cbv zeta in H.
  assert (Cast : forall conns t rq t2, cast_all (rev (v_queue s)) conns t = (rq, t2, false) -> exists b, v_queue s = rev rq ++ [b]).
  { intros conns t rq t2 C. apply cast_false in C. destruct C as (x & E). exists x. rewrite <- (rev_involutive (v_queue s)), E. reflexivity. }
  destruct (v_backlog s) as [|x bl].
  - destruct sig; [injection H as <-; now left|]. destruct (serve_conns _ _ _ _ _ _) as [[[k f] t] b]. destruct b; [|injection H as <-; now left].
    destruct (cast_all _ _ _) as [[rq t2] b2] eqn:C. destruct b2; [discriminate H|]. injection H as <-. right. exact (Cast _ _ _ _ C).
  - destruct (v_free s) as [|f0]; [discriminate H|]. destruct (serve_conns _ _ _ _ _ _) as [[[k f] t] b]. destruct b; [|injection H as <-; now left].
    destruct (cast_all _ _ _) as [[rq t2] b2] eqn:C. destruct b2; [discriminate H|]. injection H as <-. right. exact (Cast _ _ _ _ C).
Qed.
End W.
