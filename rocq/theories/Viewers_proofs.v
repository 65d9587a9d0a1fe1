(** Proofs for C111. *)
From Coq Require Import List Arith Bool Lia.
Import ListNotations.
From Verif Require Import Viewers_model Viewers_spec.

(** * Lists of sessions *)
Lemma nth_set_same v x : forall l y, nth_error l v = Some y -> nth_error (set_session v x l) v = Some x.
Proof.
  unfold set_session. induction v as [|v IH]; intros [|z l] y H; cbn in *; try discriminate; auto. exact (IH l y H).
Qed.
Lemma nth_set_other v x j : forall l y, nth_error l v = Some y -> j <> v -> nth_error (set_session v x l) j = nth_error l j.
Proof.
  unfold set_session. revert j. induction v as [|v IH]; intros j [|z l] y H N; cbn in *; try discriminate.
  - destruct j; [lia|reflexivity].
  - destruct j; [reflexivity|]. cbn. apply (IH j l y H). lia.
Qed.
Lemma Forall_set (P : session -> Prop) v x l y : nth_error l v = Some y -> P x -> Forall P l -> Forall P (set_session v x l).
Proof.
  intros H Hx F. rewrite Forall_forall in *. intros z Hz. apply In_nth_error in Hz as (j & Hj). destruct (Nat.eq_dec j v) as [->|N].
  - rewrite (nth_set_same v x l y H) in Hj. congruence.
  - rewrite (nth_set_other v x j l y H N) in Hj. apply F. exact (nth_error_In _ _ Hj).
Qed.
Lemma all_later_nth : forall l l', all_later l = Some l' -> forall v, match nth_error l v with
  | Some x => exists y, later x = Some y /\ nth_error l' v = Some y | None => nth_error l' v = None end.
Proof.
  induction l as [|x l IH]; intros l' H v; cbn in H.
  - injection H as <-. destruct v; reflexivity.
  - destruct (later x) as [y|] eqn:E; [|discriminate]. destruct (all_later l) as [r|] eqn:E2; [|discriminate]. injection H as <-.
    destruct v as [|v]; cbn; [eauto|]. exact (IH r eq_refl v).
Qed.
Lemma all_later_some l : (forall x, In x l -> later x <> None) -> exists l', all_later l = Some l'.
Proof.
  induction l as [|x l IH]; intros H; cbn; [eauto|]. destruct (later x) as [y|] eqn:E; [|exfalso; apply (H x); [now left|auto]].
  destruct IH as (r & ->); [intros z Hz; apply H; now right|]. eauto.
Qed.

Lemma step_mono l a b : step l a = Some b -> now a <= now b.
Proof.
  intros H. destruct l as [e| | |v w|]; cbn [step] in H.
  - destruct e; try discriminate H; injection H as <-; cbn; lia.
  - destruct (srv a); [|discriminate]. destruct (inbox a) as [|[e t] r]; [discriminate|]. injection H as <-.
    destruct e as [|v d|v|v|]; cbn [handle]; try (cbn; lia); cbn [sessions]; destruct (nth_error (sessions a) v) as [x|]; try (cbn; lia); destruct (se_running x); cbn; lia.
  - destruct (srv a); [discriminate|]. destruct (server_waits a); [discriminate|]. injection H as <-. cbn. lia.
  - destruct (nth_error (sessions a) v) as [x|]; [|discriminate]. destruct (work w x) as [[y b']|]; [|discriminate]. injection H as <-. destruct b'; cbn; lia.
  - destruct (server_waits a); [|discriminate]. destruct (all_later (sessions a)); [|discriminate]. injection H as <-. cbn. lia.
Qed.
Lemma run_mono : forall ls a b, run ls a = Some b -> now a <= now b.
Proof.
  induction ls as [|l ls IH]; intros a b H; cbn in H; [injection H as <-; lia|]. destruct (step l a) as [c|] eqn:E; [|discriminate].
  apply step_mono in E. apply IH in H. lia.
Qed.

Section Bounds.
Variables D W : nat.
Let B := D + W + 10.

Definition pc_ok (p : wpc) : Prop := match p with InMessage n => n <= D | InWork n => n <= W | InSleep n => n <= 10 | _ => True end.
Definition session_ok (x : session) : Prop := Forall (fun d => d <= D) (se_in x) /\ pc_ok (se_pc x).
Definition event_ok (p : event * nat) : Prop := match fst p with Data _ d => d <= D | _ => True end.
Definition joining_ok (s : state) : Prop :=
  match srv s with Free => True | Joining v => exists x, nth_error (sessions s) v = Some x /\ se_running x = false end.
Definition good (s : state) : Prop := Forall session_ok (sessions s) /\ Forall event_ok (inbox s) /\ joining_ok s.

(** The time until the worker of a session that is destroyed has ended. *)
Definition rest (x : session) : nat :=
  match se_pc x with AtTop => 0 | AtMore => W + 10 | InMessage n => n + W + 10 | InWork n => n + 10 | InSleep n => n | Ended => 0 end.
Definition charge (s : state) : nat :=
  match srv s with Free => 0 | Joining v => match nth_error (sessions s) v with Some x => rest x | None => 0 end end.
Lemma rest_bound x : session_ok x -> rest x <= B.
Proof. intros (_ & P). unfold rest, B. destruct (se_pc x); cbn in P; lia. Qed.
Lemma charge_bound s : good s -> charge s <= match srv s with Free => 0 | Joining _ => B end.
Proof.
  intros (S & _ & J). unfold charge, joining_ok in *. destruct (srv s) as [|v]; [lia|]. destruct J as (x & E & _). rewrite E. apply rest_bound.
  apply (proj1 (Forall_forall _ _) S). exact (nth_error_In _ _ E).
Qed.

Lemma work_ok w x y b : w <= W -> session_ok x -> work w x = Some (y, b) -> session_ok y /\ se_running y = se_running x /\
  (se_running x = false -> rest y <= rest x /\ se_in y = se_in x).
Proof.
  intros Hw (F & P) H. unfold work in H. destruct x as [run inc pc]. cbn [se_running se_in se_pc] in *. unfold session_ok, rest, with_pc in *.
  destruct pc as [| |[|n]|[|n]|[|n]|]; try discriminate H; cbn [se_running se_in se_pc pc_ok] in *.
  - injection H as <- <-. cbn. destruct run; cbn; repeat split; auto; try discriminate; lia.
  - destruct run; [destruct inc as [|d r]|]; injection H as <- <-; cbn; repeat split; auto; try discriminate; try lia.
    + now inversion F.
    + now inversion F.
  - injection H as <- <-. cbn. repeat split; auto; intros; lia.
  - injection H as <- <-. cbn. repeat split; auto; intros; lia.
  - injection H as <- <-. cbn. repeat split; auto; intros; lia.
Qed.
Lemma later_ok x y : session_ok x -> later x = Some y -> session_ok y /\ se_running y = se_running x /\ se_in y = se_in x /\ (se_pc x <> Ended -> S (rest y) = rest x).
Proof.
  intros (F & P) H. unfold later in H. destruct x as [run inc pc]. cbn [se_running se_in se_pc] in *. unfold session_ok, rest, with_pc in *.
  destruct pc as [| |[|n]|[|n]|[|n]|]; try discriminate H; injection H as <-; cbn in *; repeat split; auto; try lia. intros N. now destruct N.
Qed.

(** * One step *)
Lemma handle_good e a r s : good s -> inbox s = (e, a) :: r -> srv s = Free ->
  let s1 := {| now := now s; srv := Free; inbox := r; sessions := sessions s; handled := handled s ++ [(e, a, now s)] |} in
  good (handle e s1) /\ inbox (handle e s1) = r /\ now (handle e s1) = now s /\ handled (handle e s1) = handled s ++ [(e, a, now s)] /\
  (srv (handle e s1) = Free \/ exists v, e = Close v /\ srv (handle e s1) = Joining v).
Proof.
  intros (GS & GI & _) E Ef s1. rewrite E in GI. inversion GI as [|? ? He Hr]; subst. unfold good, joining_ok.
  destruct e as [|v d|v|v|]; cbn [handle].
  - cbn. repeat split; auto. apply Forall_app. split; auto. repeat constructor.
  - cbn [sessions s1]. destruct (nth_error (sessions s) v) as [x|] eqn:Ex; [|cbn; auto 10]. destruct (se_running x); [|cbn; auto 10].
    cbn. repeat split; auto. assert (Hx : session_ok x) by (apply (proj1 (Forall_forall _ _) GS); exact (nth_error_In _ _ Ex)).
    apply (Forall_set _ v _ _ x Ex); auto. destruct Hx as [F P]. split; cbn; auto. apply Forall_app. split; auto.
  - cbn [sessions s1]. destruct (nth_error (sessions s) v) as [x|] eqn:Ex; [|cbn; auto 10]. destruct (se_running x); [|cbn; auto 10].
    cbn. repeat split; auto.
    + assert (Hx : session_ok x) by (apply (proj1 (Forall_forall _ _) GS); exact (nth_error_In _ _ Ex)).
      apply (Forall_set _ v _ _ x Ex); auto.
    + eexists. split; [apply (nth_set_same v _ _ x Ex)|reflexivity].
    + right. exists v. auto.
  - cbn. auto 10.
  - cbn. auto 10.
Qed.

Lemma step_good l s s' : good s -> within D W l -> step l s = Some s' -> good s'.
Proof.
  intros G Wl H. destruct G as (GS & GI & GJ) eqn:EG. clear EG. destruct l as [e| | |v w|]; cbn [step] in H.
  - assert (K : match e with Reply _ => False | _ => True end /\ s' = put e s) by (destruct e; try discriminate H; injection H as <-; auto).
    destruct K as [_ ->]. split; [exact GS|]. split; [|exact GJ]. cbn. apply Forall_app. split; [exact GI|]. constructor; [|constructor]. destruct e; cbn in *; auto.
  - destruct (srv s) as [|v] eqn:Es; [|discriminate]. destruct (inbox s) as [|[e a] r] eqn:Ei; [discriminate|]. injection H as <-.
    apply (handle_good e a r s G Ei Es).
  - destruct (srv s) as [|v] eqn:Es; [discriminate|]. destruct (server_waits s); [discriminate|]. injection H as <-. repeat split; auto.
  - destruct (nth_error (sessions s) v) as [x|] eqn:Ex; [|discriminate]. destruct (work w x) as [[y b]|] eqn:Ew; [|discriminate]. injection H as <-.
    assert (Hx : session_ok x) by (apply (proj1 (Forall_forall _ _) GS); exact (nth_error_In _ _ Ex)).
    destruct (work_ok w x y b Wl Hx Ew) as (Hy & Hr & _).
    assert (K : good (with_sessions (set_session v y (sessions s)) s)).
    { split; [apply (Forall_set _ v _ _ x Ex); auto|]. split; [exact GI|]. unfold joining_ok in *. cbn. destruct (srv s) as [|j]; auto.
      destruct GJ as (z & Ez & Rz). destruct (Nat.eq_dec j v) as [->|N].
      - exists y. split; [apply (nth_set_same v y _ x Ex)|]. congruence.
      - exists z. split; [rewrite (nth_set_other v y j _ x Ex N); auto|auto]. }
    destruct b; [|exact K]. destruct K as (K1 & K2 & K3). split; [exact K1|]. split; [|exact K3]. cbn. apply Forall_app. split; auto. repeat constructor.
  - destruct (server_waits s) eqn:Ew; [|discriminate]. destruct (all_later (sessions s)) as [r|] eqn:El; [|discriminate]. injection H as <-.
    pose proof (all_later_nth _ _ El) as N. split; [|split; [exact GI|]].
    + apply Forall_forall. intros y Hy. apply In_nth_error in Hy as (j & Hj). cbn in Hj. specialize (N j). destruct (nth_error (sessions s) j) as [x|] eqn:Ex; [|cbn in *; congruence].
      destruct N as (y' & E1 & E2). assert (y' = y) by congruence. subst y'.
      assert (Hx : session_ok x) by (apply (proj1 (Forall_forall _ _) GS); exact (nth_error_In _ _ Ex)). apply (later_ok x y Hx E1).
    + unfold joining_ok in *. cbn. destruct (srv s) as [|j]; auto. destruct GJ as (z & Ez & Rz). specialize (N j). rewrite Ez in N. destruct N as (y & E1 & E2).
      exists y. split; auto. assert (Hz : session_ok z) by (apply (proj1 (Forall_forall _ _) GS); exact (nth_error_In _ _ Ez)).
      destruct (later_ok z y Hz E1) as (_ & R & _). congruence.
Qed.

Definition phi (p : list (event * nat)) (s : state) : nat := charge s + B * length (filter is_close p).

Lemma step_wait l s s' p x q : good s -> within D W l -> step l s = Some s' -> inbox s = p ++ x :: q ->
  (p = [] /\ handled s' = handled s ++ [(fst x, snd x, now s)]) \/
  (exists p' q', inbox s' = p' ++ x :: q' /\ now s' + phi p' s' <= now s + phi p s /\ length (handled s') + length p' = length (handled s) + length p).
Proof.
  intros G Wl H E. pose proof (charge_bound s G) as CB. pose proof (step_good l s s' G Wl H) as G'. pose proof (charge_bound s' G') as CB'.
  pose proof G as (GS & GI & GJ). destruct l as [e| | |v w|]; cbn [step] in H.
  - assert (K : s' = put e s) by (destruct e; try discriminate H; injection H as <-; auto). subst s'. right. exists p, (q ++ [(e, now s)]).
    split; [cbn; rewrite E, <- app_assoc; reflexivity|]. split; [unfold phi, charge; cbn; lia|reflexivity].
  - destruct (srv s) as [|v] eqn:Es; [|discriminate]. destruct p as [|[e a] p].
    + left. split; auto. cbn [app] in E. rewrite E in H. destruct x as [e a]. injection H as <-.
      destruct (handle_good e a q s G E Es) as (_ & _ & _ & K & _). exact K.
    + right. cbn [app] in E. rewrite E in H. injection H as <-. destruct (handle_good e a (p ++ x :: q) s G E Es) as (_ & K1 & K2 & K3 & K4).
      cbv zeta in K1, K2, K3, K4. exists p, q. split; [exact K1|]. rewrite K2, K3, app_length. cbn [length]. split; [|lia].
      unfold phi. cbn [filter]. unfold is_close at 2. cbn [fst]. destruct K4 as [K4|(v & -> & K4)].
      * rewrite K4 in CB'. destruct e; cbn [length]; lia.
      * rewrite K4 in CB'. cbn [length]. lia.
  - destruct (srv s) as [|v] eqn:Es; [discriminate|]. destruct (server_waits s); [discriminate|]. injection H as <-. right. exists p, q. split; [exact E|].
    cbn. split; [|reflexivity]. unfold phi. cbn. lia.
  - destruct (nth_error (sessions s) v) as [y|] eqn:Ey; [|discriminate]. destruct (work w y) as [[z b]|] eqn:Ew; [|discriminate]. injection H as <-.
    assert (Hy : session_ok y) by (apply (proj1 (Forall_forall _ _) GS); exact (nth_error_In _ _ Ey)).
    destruct (work_ok w y z b Wl Hy Ew) as (Hz & Hr & Hs).
    assert (C : charge (with_sessions (set_session v z (sessions s)) s) <= charge s).
    { unfold charge, joining_ok in *. cbn. destruct (srv s) as [|j]; [lia|]. destruct GJ as (u & Eu & Ru). rewrite Eu. destruct (Nat.eq_dec j v) as [->|N].
      - rewrite (nth_set_same v z _ y Ey). assert (u = y) by congruence. subst u. apply Hs in Ru. lia.
      - rewrite (nth_set_other v z j _ y Ey N), Eu. lia. }
    right. destruct b.
    + exists p, (q ++ [(Reply v, now s)]). split; [cbn; rewrite E, <- app_assoc; reflexivity|]. split; [unfold phi, charge in *; cbn in *; lia|reflexivity].
    + exists p, q. split; [exact E|]. split; [unfold phi in *; cbn; lia|reflexivity].
  - destruct (server_waits s) eqn:Ew; [|discriminate]. destruct (all_later (sessions s)) as [r|] eqn:El; [|discriminate]. injection H as <-.
    pose proof (all_later_nth _ _ El) as N. right. exists p, q. split; [exact E|]. split; [|reflexivity].
    unfold server_waits in Ew. unfold phi, charge, joining_ok in *. cbn. destruct (srv s) as [|j].
    + rewrite E in Ew. destruct p; discriminate Ew.
    + destruct GJ as (z & Ez & Rz). specialize (N j). rewrite Ez in N, Ew. destruct N as (y & E1 & E2). rewrite Ez, E2.
      assert (Hz : session_ok z) by (apply (proj1 (Forall_forall _ _) GS); exact (nth_error_In _ _ Ez)).
      destruct (later_ok z y Hz E1) as (_ & _ & _ & R). specialize (R ltac:(intros X; rewrite X in Ew; discriminate Ew)). lia.
Qed.

Lemma handled_grows l s s' : step l s = Some s' -> exists h, handled s' = handled s ++ h.
Proof.
  intros H. destruct l as [e| | |v w|]; cbn [step] in H.
  - exists []. rewrite app_nil_r. destruct e; try discriminate H; injection H as <-; reflexivity.
  - destruct (srv s); [|discriminate]. destruct (inbox s) as [|[e a] r]; [discriminate|]. injection H as <-. exists [(e, a, now s)].
    destruct e as [|v d|v|v|]; cbn [handle]; try reflexivity; cbn [sessions]; destruct (nth_error (sessions s) v) as [x|]; try reflexivity; destruct (se_running x); reflexivity.
  - destruct (srv s); [discriminate|]. destruct (server_waits s); [discriminate|]. injection H as <-. exists []. rewrite app_nil_r. reflexivity.
  - destruct (nth_error (sessions s) v) as [x|]; [|discriminate]. destruct (work w x) as [[y b]|]; [|discriminate]. injection H as <-. exists [].
    rewrite app_nil_r. destruct b; reflexivity.
  - destruct (server_waits s); [|discriminate]. destruct (all_later (sessions s)); [|discriminate]. injection H as <-. exists []. rewrite app_nil_r. reflexivity.
Qed.
Lemma handled_run : forall ls s s', run ls s = Some s' -> exists h, handled s' = handled s ++ h.
Proof.
  induction ls as [|l ls IH]; intros s s' H; cbn in H; [injection H as <-; exists []; now rewrite app_nil_r|].
  destruct (step l s) as [s1|] eqn:E; [|discriminate]. destruct (handled_grows l s s1 E) as (h1 & H1). destruct (IH s1 s' H) as (h2 & H2).
  exists (h1 ++ h2). now rewrite H2, H1, app_assoc.
Qed.
Lemma handled_short s p x q : inbox s = p ++ x :: q -> nth_error (handled s) (length (handled s) + length p) = None.
Proof. intros _. apply nth_error_None. lia. Qed.

Lemma waits : forall ls s s' p x q, good s -> Forall (within D W) ls -> run ls s = Some s' -> inbox s = p ++ x :: q ->
  match nth_error (handled s') (length (handled s) + length p) with
  | Some r => exists t, r = (fst x, snd x, t) /\ now s <= t <= now s + phi p s
  | None => now s' <= now s + phi p s
  end.
Proof.
  induction ls as [|l ls IH]; intros s s' p x q G F H E; cbn in H.
  - injection H as <-. rewrite (handled_short s p x q E). lia.
  - inversion F as [|? ? Hl Hls]; subst. destruct (step l s) as [s1|] eqn:Es; [|discriminate].
    pose proof (step_good l s s1 G Hl Es) as G1. pose proof (step_mono l s s1 Es) as M1. destruct (step_wait l s s1 p x q G Hl Es E) as [[-> Eh]|(p' & q' & E' & B' & L')].
    + destruct (handled_run ls s1 s' H) as (h & Hh). rewrite Hh, Eh, Nat.add_0_r, <- app_assoc, nth_error_app2, Nat.sub_diag by lia. cbn.
      exists (now s). split; [reflexivity|lia].
    + specialize (IH s1 s' p' x q' G1 Hls H E'). rewrite L' in IH. destruct (nth_error (handled s') (length (handled s) + length p)) as [r|].
      * destruct IH as (t & -> & Ht). exists t. split; [reflexivity|lia].
      * lia.
Qed.
Lemma good0 : good state0.
Proof. repeat split; constructor. Qed.
Lemma run_good : forall ls s s', good s -> Forall (within D W) ls -> run ls s = Some s' -> good s'.
Proof.
  induction ls as [|l ls IH]; intros s s' G F H; cbn in H; [now injection H as <-|]. inversion F; subst.
  destruct (step l s) as [s1|] eqn:E; [|discriminate]. apply (IH s1 s'); auto. eapply step_good; eauto.
Qed.

Theorem held_up_at_most ls0 s l s1 e ls s' :
  run ls0 state0 = Some s -> step l s = Some s1 -> inbox s1 = inbox s ++ [(e, now s)] -> run ls s1 = Some s' -> Forall (within D W) (ls0 ++ l :: ls) ->
  match nth_error (handled s') (length (handled s) + length (inbox s)) with
  | Some r => exists t, r = (e, now s, t) /\ now s <= t <= now s + (D + W + 10) * leaving s
  | None => now s' <= now s + (D + W + 10) * leaving s
  end.
Proof.
  intros R0 Hl Ei R F. apply Forall_app in F as [F0 F]. inversion F as [|? ? Wl Fl]; subst.
  pose proof (run_good _ _ _ good0 F0 R0) as G. pose proof (step_good l s s1 G Wl Hl) as G1.
  assert (K : now s1 = now s /\ handled s1 = handled s /\ charge s1 <= match srv s with Free => 0 | Joining _ => B end).
  { destruct l as [e'| | |v w|]; cbn [step] in Hl.
    - assert (K : s1 = put e' s) by (destruct e'; try discriminate Hl; injection Hl as <-; auto). subst s1. repeat split. exact (charge_bound s G).
    - exfalso. destruct (srv s) as [|v] eqn:Es; [|discriminate]. destruct (inbox s) as [|[e' a] r] eqn:Ex; [discriminate|]. injection Hl as <-.
      destruct (handle_good e' a r s G Ex Es) as (_ & K & _). cbv zeta in K. rewrite K in Ei. apply (f_equal (@length _)) in Ei. cbn in Ei. rewrite app_length in Ei. cbn in Ei. lia.
    - exfalso. destruct (srv s); [discriminate|]. destruct (server_waits s); [discriminate|]. injection Hl as <-. cbn in Ei. apply (f_equal (@length _)) in Ei. rewrite app_length in Ei. cbn in Ei. lia.
    - pose proof (charge_bound _ G1) as C1. destruct (nth_error (sessions s) v) as [y|]; [|discriminate]. destruct (work w y) as [[z b]|]; [|discriminate]. injection Hl as <-.
      destruct b; repeat split; exact C1.
    - exfalso. destruct (server_waits s); [|discriminate]. destruct (all_later (sessions s)); [|discriminate]. injection Hl as <-. cbn in Ei. apply (f_equal (@length _)) in Ei. rewrite app_length in Ei. cbn in Ei. lia. }
  destruct K as (Kn & Kh & Kc). pose proof (waits ls s1 s' (inbox s) (e, now s) [] G1 Fl R Ei) as H. rewrite Kn, Kh in H. cbn [fst snd] in H.
  assert (P : phi (inbox s) s1 <= (D + W + 10) * leaving s).
  { unfold phi, leaving. fold B. destruct (srv s); lia. }
  destruct (nth_error (handled s') (length (handled s) + length (inbox s))) as [r|]; [destruct H as (t & -> & Ht); exists t; split; [reflexivity|lia]|lia].
Qed.
End Bounds.

(** Every history has bounds. *)
Lemma bounds ls : exists D W, Forall (within D W) ls.
Proof.
  induction ls as [|l ls (D & W & H)]; [exists 0, 0; constructor|].
  exists (D + match l with Arrive (Data _ d) => d | _ => 0 end), (W + match l with Step _ w => w | _ => 0 end). constructor.
  - destruct l as [[]| | | |]; cbn; auto; lia.
  - eapply Forall_impl; [|exact H]. intros [[]| | | |]; cbn; auto; intros; lia.
Qed.

Theorem at_once ls0 s l s1 e ls s' : run ls0 state0 = Some s -> leaving s = 0 ->
  step l s = Some s1 -> inbox s1 = inbox s ++ [(e, now s)] -> run ls s1 = Some s' ->
  match nth_error (handled s') (length (handled s) + length (inbox s)) with Some r => r = (e, now s, now s) | None => now s' = now s end.
Proof.
  intros R0 L Hl Ei R. destruct (bounds (ls0 ++ l :: ls)) as (D & W & F). pose proof (held_up_at_most D W ls0 s l s1 e ls s' R0 Hl Ei R F) as H. rewrite L, Nat.mul_0_r, Nat.add_0_r in H.
  pose proof (step_mono _ _ _ Hl). pose proof (run_mono _ _ _ R).
  destruct (nth_error (handled s') (length (handled s) + length (inbox s))) as [r|]; [|lia].
  destruct H as (t & -> & Ht). f_equal. lia.
Qed.

(** * The session that is destroyed *)
Lemma step_dead l s s' v x : step l s = Some s' -> nth_error (sessions s) v = Some x -> se_running x = false ->
  exists y, nth_error (sessions s') v = Some y /\ se_running y = false /\ se_in y = se_in x.
Proof.
  intros H Ex Rx. destruct l as [e| | |j w|]; cbn [step] in H.
  - exists x. destruct e; try discriminate H; injection H as <-; auto.
  - destruct (srv s); [|discriminate]. destruct (inbox s) as [|[e a] r]; [discriminate|]. injection H as <-.
    destruct e as [|j d|j|j|]; cbn [handle].
    + exists x. cbn. split; auto. rewrite nth_error_app1; [exact Ex|]. apply nth_error_Some. congruence.
    + cbn [sessions]. destruct (nth_error (sessions s) j) as [z|] eqn:Ez; [|exists x; auto]. destruct (se_running z) eqn:Rz; [|exists x; auto].
      exists x. cbn. split; auto. rewrite (nth_set_other j _ v _ z Ez); [exact Ex|]. intros ->. congruence.
    + cbn [sessions]. destruct (nth_error (sessions s) j) as [z|] eqn:Ez; [|exists x; auto]. destruct (se_running z) eqn:Rz; [|exists x; auto].
      exists x. cbn. split; auto. rewrite (nth_set_other j _ v _ z Ez); [exact Ex|]. intros ->. congruence.
    + exists x. auto.
    + exists x. auto.
  - destruct (srv s); [discriminate|]. destruct (server_waits s); [discriminate|]. injection H as <-. exists x. auto.
  - destruct (nth_error (sessions s) j) as [z|] eqn:Ez; [|discriminate]. destruct (work w z) as [[y b]|] eqn:Ew; [|discriminate]. injection H as <-.
    assert (K : exists u, nth_error (set_session j y (sessions s)) v = Some u /\ se_running u = false /\ se_in u = se_in x).
    { destruct (Nat.eq_dec v j) as [->|N].
      - exists y. split; [apply (nth_set_same j y _ z Ez)|]. assert (z = x) by congruence. subst z. unfold work in Ew. destruct x as [run inc pc]. cbn in *. subst run.
        destruct pc as [| |[|n]|[|n]|[|n]|]; try discriminate Ew; injection Ew as <- <-; auto.
      - exists x. rewrite (nth_set_other j y v _ z Ez N). auto. }
    destruct b; exact K.
  - destruct (server_waits s); [|discriminate]. destruct (all_later (sessions s)) as [r|] eqn:El; [|discriminate]. injection H as <-.
    pose proof (all_later_nth _ _ El v) as N. rewrite Ex in N. destruct N as (y & E1 & E2). exists y. split; [exact E2|].
    unfold later in E1. destruct x as [run inc pc]. cbn in *. subst run. destruct pc as [| |[|n]|[|n]|[|n]|]; try discriminate E1; injection E1 as <-; auto.
Qed.
Lemma run_dead : forall ls s s' v x, run ls s = Some s' -> nth_error (sessions s) v = Some x -> se_running x = false ->
  exists y, nth_error (sessions s') v = Some y /\ se_running y = false /\ se_in y = se_in x.
Proof.
  induction ls as [|l ls IH]; intros s s' v x H Ex Rx; cbn in H; [injection H as <-; eauto|]. destruct (step l s) as [c|] eqn:E; [|discriminate].
  destruct (step_dead _ _ _ _ _ E Ex Rx) as (y & Ey & Ry & Iy). destruct (IH c s' v y H Ey Ry) as (z & Ez & Rz & Iz). exists z. repeat split; auto. congruence.
Qed.
Theorem no_more ls0 s v ls s' : run ls0 state0 = Some s -> srv s = Joining v -> run ls s = Some s' -> waiting v s' = waiting v s.
Proof.
  intros R0 J R. destruct (bounds ls0) as (D & W & F). destruct (run_good D W _ _ _ (good0 D W) F R0) as (_ & _ & GJ). unfold joining_ok in GJ. rewrite J in GJ.
  destruct GJ as (x & Ex & Rx). destruct (run_dead _ _ _ _ _ R Ex Rx) as (y & Ey & _ & Iy). unfold waiting. now rewrite Ex, Ey, Iy.
Qed.

(** * Nothing is stuck *)
Theorem never_stuck ls0 s : run ls0 state0 = Some s -> exists l s', (forall e, l <> Arrive e) /\ step l s = Some s'.
Proof.
  intros R0. destruct (bounds ls0) as (D & W & F). destruct (run_good D W _ _ _ (good0 D W) F R0) as (_ & _ & GJ). unfold joining_ok in GJ.
  destruct (server_waits s) eqn:Ew.
  - destruct (all_later (sessions s)) as [r|] eqn:El.
    + exists Tick. eexists. split; [discriminate|]. cbn. rewrite Ew, El. reflexivity.
    + assert (K : exists x, In x (sessions s) /\ later x = None).
      { clear - El. induction (sessions s) as [|x l IH]; cbn in El; [discriminate|]. destruct (later x) as [y|] eqn:E; [|exists x; cbn; auto].
        destruct (all_later l); [discriminate|]. destruct (IH eq_refl) as (z & Hz & Lz). exists z. cbn. auto. }
      destruct K as (x & Hx & Lx). apply In_nth_error in Hx as (v & Hv).
      assert (K : exists yb, work 0 x = Some yb).
      { unfold later in Lx. unfold work. destruct x as [run inc pc]. cbn in *. destruct pc as [| |[|n]|[|n]|[|n]|]; try discriminate Lx; cbn; eauto.
        destruct run; [destruct inc|]; eauto. }
      destruct K as ([y b] & Ey). exists (Step v 0). eexists. split; [discriminate|]. cbn [step]. rewrite Hv, Ey. reflexivity.
  - destruct (srv s) as [|v] eqn:Es.
    + unfold server_waits in Ew. rewrite Es in Ew. destruct (inbox s) as [|[e a] r] eqn:Ei; [discriminate|]. exists Serve. eexists. split; [discriminate|]. cbn [step]. rewrite Es, Ei. reflexivity.
    + exists Joined. eexists. split; [discriminate|]. cbn [step]. rewrite Es, Ew. reflexivity.
Qed.

(** * A viewer that leaves during a message *)
Lemma run_app : forall a b s, run (a ++ b) s = match run a s with Some s' => run b s' | None => None end.
Proof. induction a as [|l a IH]; intros b s; cbn; auto. destruct (step l s); auto. Qed.
Lemma pass_message k : forall m t q h,
  run (repeat Tick m) {| now := t; srv := Joining 0; inbox := q; sessions := [{| se_running := false; se_in := []; se_pc := InMessage (m + k) |}]; handled := h |}
  = Some {| now := t + m; srv := Joining 0; inbox := q; sessions := [{| se_running := false; se_in := []; se_pc := InMessage k |}]; handled := h |}.
Proof.
  induction m as [|m IH]; intros t q h; cbn; [now rewrite Nat.add_0_r|]. specialize (IH (S t) q h). cbn in IH. unfold with_pc. cbn. rewrite IH. do 2 f_equal. lia.
Qed.
Definition leaves (n : nat) (e : event) : list label :=
  [Arrive Connect; Serve; Step 0 0; Arrive (Data 0 n); Serve; Step 0 0; Arrive (Close 0); Serve; Arrive e] ++
  repeat Tick n ++ [Step 0 0; Step 0 0; Step 0 0] ++ repeat Tick 10 ++ [Step 0 0; Step 0 0; Joined; Serve].
Theorem leaver_holds_up n : forall e, e = Page \/ e = Connect ->
  exists ls s, run ls state0 = Some s /\ Forall (within n 0) ls /\ In (e, 0, n + 10) (handled s).
Proof.
  intros e He. assert (K : exists s, run (leaves n e) state0 = Some s /\ In (e, 0, n + 10) (handled s)).
  { assert (Q : run [Arrive Connect; Serve; Step 0 0; Arrive (Data 0 n); Serve; Step 0 0; Arrive (Close 0); Serve; Arrive e] state0
      = Some {| now := 0; srv := Joining 0; inbox := [(e, 0)]; sessions := [{| se_running := false; se_in := []; se_pc := InMessage n |}];
                handled := [(Connect, 0, 0); (Data 0 n, 0, 0); (Close 0, 0, 0)] |}) by (destruct He as [-> | ->]; reflexivity).
    pose proof (pass_message 0 n 0 [(e, 0)] [(Connect, 0, 0); (Data 0 n, 0, 0); (Close 0, 0, 0)]) as P. rewrite Nat.add_0_r in P.
    unfold leaves. rewrite run_app, Q, run_app, P. change (0 + n) with n. rewrite (Nat.add_comm n 10). clear P Q.
    match goal with |- exists s, run ?t ?st = _ /\ _ => assert (M : match run t st with Some s => nth_error (handled s) 3 = Some (e, 0, 10 + n) | None => False end) end.
    { destruct He as [-> | ->]; vm_compute; reflexivity. }
    match type of M with match ?r with _ => _ end => destruct r as [s|] end; [|destruct M]. exists s. split; [reflexivity|]. exact (nth_error_In _ _ M). }
  destruct K as (s & R & I). exists (leaves n e), s. repeat split; auto. unfold leaves. repeat (apply Forall_app; split); [| | | |].
  - destruct He as [-> | ->]; repeat constructor.
  - apply Forall_forall. intros x Hx. apply repeat_spec in Hx. subst. exact Logic.I.
  - repeat constructor.
  - repeat constructor.
  - repeat constructor.
Qed.
