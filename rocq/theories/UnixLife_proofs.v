From Coq Require Import List Arith Bool Lia.
Import ListNotations.
From Verif Require Import UnixLife_model.

(** ** Making and destroying *)
Theorem serve_failure c : fst (u_serve c) = false -> factory (u_serve c) = FTerminate.
Proof. unfold u_serve, factory. destruct (c_socket c); cbn; [|auto]. destruct (c_bind c); cbn; [|auto]. destruct (c_listen c); cbn; [discriminate|auto]. Qed.
Theorem connect_failure c : fst (u_connect c) = false -> factory (u_connect c) = FTerminate.
Proof. unfold u_connect, factory. destruct (c_socket c); cbn; [|auto]. destruct (c_connect c); cbn; [discriminate|auto]. Qed.

Theorem serve_success c fd : c_socket c = Some fd -> c_bind c = true -> c_listen c = true -> exists t, factory (u_serve c) = Got t /\ u_thread t = Working /\ u_conns t = [fd] /\ (fd <> 0 -> u_is_connected t = true).
Proof. intros E1 E2 E3. unfold u_serve, factory. rewrite E1, E2, E3. cbn. eexists. repeat split. unfold u_is_connected. cbn. intros H. destruct fd; [congruence|reflexivity]. Qed.
Theorem connect_success c fd : c_socket c = Some fd -> c_connect c = true -> exists t, factory (u_connect c) = Got t /\ u_thread t = Working /\ u_conns t = [fd] /\ (fd <> 0 -> u_is_connected t = true).
Proof. intros E1 E2. unfold u_connect, factory. rewrite E1, E2. cbn. eexists. repeat split. unfold u_is_connected. cbn. intros H. destruct fd; [congruence|reflexivity]. Qed.

Lemma fold_fields w l : forall t, let t' := fold_left (fun t fd => if (fd =? u_server t) || (fd =? u_client t) then t else serve_conn w fd t) l t in
  u_server t' = u_server t /\ u_client t' = u_client t /\ u_running t' = u_running t /\ u_thread t' = u_thread t /\ u_listen t' = u_listen t.
Proof.
  induction l as [|fd l IH]; intros t; cbn; auto. destruct (IH (if (fd =? u_server t) || (fd =? u_client t) then t else serve_conn w fd t)) as (A & B & C & D & E).
  cbn in *. rewrite A, B, C, D, E. destruct ((fd =? u_server t) || (fd =? u_client t)); auto. unfold serve_conn. destruct (inb fd (w_ready w) && negb (w_receives w fd)); auto.
Qed.

(** A transport handed out by the factory and its passes: destroying it closes its connections, unless the worker hangs in a call. *)
Lemma pass_thread w t : u_thread t = Working -> u_thread (u_pass w t) = Working \/ u_thread (u_pass w t) = Finished.
Proof.
  intros H. unfold u_pass. cbn zeta. match goal with |- context [match ?o with None => _ | Some _ => _ end] => destruct o as [t1|] eqn:E end; [|auto].
  cbn [u_thread]. match goal with |- context [fold_left ?f ?l ?t0] => pose proof (fold_fields) as F; destruct (u_running (fold_left f l t0)); [|auto] end.
  clear F. left. match goal with |- context [fold_left (fun t fd => if _ then t else serve_conn ?ww fd t) ?l ?t0] => destruct (fold_fields ww l t0) as (_ & _ & _ & X & _) end.
  cbn zeta in X. rewrite X. destruct (inb (u_server t) (w_ready w) && inb (u_server t) (u_conns t)).
  - destruct (w_accept w); [|discriminate]. injection E as <-. destruct (_ && _); cbn; exact H.
  - injection E as <-. destruct (_ && _); cbn; exact H.
Qed.

Lemma passes_thread ws : forall t, u_thread t = Working \/ u_thread t = Finished -> u_thread (u_passes ws t) = Working \/ u_thread (u_passes ws t) = Finished.
Proof.
  induction ws as [|w ws IH]; intros t H; cbn [u_passes]; auto. destruct H as [H|H]; rewrite H; auto. apply IH. apply pass_thread. exact H.
Qed.

Theorem destroy_after c ws t made : made = u_serve c \/ made = u_connect c -> factory made = Got t ->
  destroy (u_passes ws t) = Destroyed (u_conns (u_passes ws t)).
Proof.
  intros HM HG. assert (H : u_thread t = Working).
  { unfold factory in HG. destruct HM as [-> | ->].
    - unfold u_serve in HG. destruct (c_socket c); [|discriminate]. destruct (c_bind c); [|discriminate]. destruct (c_listen c); [|discriminate]. cbn in HG. injection HG as <-. reflexivity.
    - unfold u_connect in HG. destruct (c_socket c); [|discriminate]. destruct (c_connect c); [|discriminate]. cbn in HG. injection HG as <-. reflexivity. }
  unfold destroy. destruct (passes_thread ws t (or_introl H)) as [-> | ->]; reflexivity.
Qed.

(** ** A server goes on serving, provided descriptor 0 is not its own *)
Definition serving (t : utransport) : Prop :=
  u_server t <> 0 /\ u_client t = 0 /\ ~ In 0 (u_conns t) /\ In (u_server t) (u_conns t) /\ u_running t = true /\ u_thread t = Working /\ u_listen t = Some (u_server t).

Lemma inb_In fd l : inb fd l = true <-> In fd l.
Proof. unfold inb. rewrite existsb_exists. split; [intros (x & H & E); apply Nat.eqb_eq in E; congruence|intros H; exists fd; split; auto; apply Nat.eqb_refl]. Qed.
Lemma inb_notIn fd l : inb fd l = false <-> ~ In fd l.
Proof. rewrite <- inb_In. destruct (inb fd l); intuition discriminate. Qed.

Lemma fold_conns w l : forall t, let t' := fold_left (fun t fd => if (fd =? u_server t) || (fd =? u_client t) then t else serve_conn w fd t) l t in
  forall fd, In fd (u_conns t') <-> In fd (u_conns t) /\ (In fd l -> fd <> u_server t -> fd <> u_client t -> In fd (w_ready w) -> w_receives w fd = true).
Proof.
  induction l as [|x l IH]; intros t t' fd; cbn in t'; [subst t'; cbn; tauto|].
  subst t'. specialize (IH (if (x =? u_server t) || (x =? u_client t) then t else serve_conn w x t) fd). cbn zeta in IH. rewrite IH. clear IH.
  destruct (Nat.eqb_spec x (u_server t)) as [E|E]; cbn [orb].
  { subst x. split; intros [H1 H2]; split; auto; intros H3; intros; apply H2; auto; [destruct H3; [subst; tauto|auto]|now right]. }
  destruct (Nat.eqb_spec x (u_client t)) as [E2|E2].
  { subst x. split; intros [H1 H2]; split; auto; intros H3; intros; apply H2; auto; [destruct H3; [subst; tauto|auto]|now right]. }
  unfold serve_conn. destruct (inb x (w_ready w)) eqn:Er; cbn [andb]; [destruct (w_receives w x) eqn:Ew; cbn [negb]|].
  - split; intros [H1 H2]; split; auto; intros H3; intros; [destruct H3; [subst; auto|auto]|apply H2; auto; now right].
  - cbn [u_conns u_server u_client]. unfold remove_fd. rewrite filter_In. destruct (Nat.eqb_spec fd x) as [->|Hn]; cbn [negb].
    + split; [intros [[_ H] _]; discriminate|]. intros [H1 H2]. assert (w_receives w x = true) by (apply H2; auto; [now left|now apply inb_In]). congruence.
    + split; intros [H1 H2]; split; auto; try tauto; intros H3; intros; [destruct H3 as [H3|H3]; [congruence|apply H2; auto]|apply H2; auto; now right].
  - split; intros [H1 H2]; split; auto; intros H3; intros; [destruct H3 as [H3|H3]; [subst x; match goal with X : In fd (w_ready w) |- _ => apply inb_In in X end; congruence|auto]|apply H2; auto; now right].
Qed.

Theorem server_serves w t : serving t -> (forall c, w_accept w = Some c -> c <> 0) -> serving (u_pass w t).
Proof.
  intros (S1 & S2 & S3 & S4 & S5 & S6 & S7) Ha. unfold u_pass. cbn zeta.
  rewrite S2. assert (Z : inb 0 (u_conns t) = false) by (apply inb_notIn; exact S3). rewrite Z, andb_false_r. cbn [andb].
  set (w' := {| w_ready := _; w_accept := _; w_receives := _ |}).
  assert (go : forall t1, u_server t1 = u_server t -> u_client t1 = 0 -> ~ In 0 (u_conns t1) -> In (u_server t) (u_conns t1) -> u_running t1 = true -> u_thread t1 = Working -> u_listen t1 = u_listen t ->
    serving (let t3 := fold_left (fun t fd => if (fd =? u_server t) || (fd =? u_client t) then t else serve_conn w' fd t) (u_conns t1) t1 in
      {| u_server := u_server t3; u_client := u_client t3; u_conns := u_conns t3; u_running := u_running t3; u_thread := if u_running t3 then u_thread t3 else Finished; u_listen := u_listen t3 |})).
  { intros t1 A B C D E F G. cbn zeta. destruct (fold_fields w' (u_conns t1) t1) as (F1 & F2 & F3 & F4 & F5). pose proof (fold_conns w' (u_conns t1) t1) as FC. cbn zeta in FC, F1, F2, F3, F4, F5.
    set (t3 := fold_left (fun t fd => if (fd =? u_server t) || (fd =? u_client t) then t else serve_conn w' fd t) (u_conns t1) t1) in *. clearbody t3.
    unfold serving. cbn. rewrite F1, F2, F3, F4, F5, E, A. repeat split; auto.
    - intros X. apply FC in X. tauto.
    - apply FC. split; auto; intros _ X; congruence.
    - congruence. }
  destruct (inb (u_server t) (w_ready w) && inb (u_server t) (u_conns t)).
  - destruct (w_accept w) as [c|] eqn:Eacc; [|repeat split; auto].
    apply (go {| u_server := u_server t; u_client := 0; u_conns := c :: u_conns t; u_running := u_running t; u_thread := u_thread t; u_listen := u_listen t |}); cbn; auto.
    intros [X|X]; [exact (Ha c eq_refl X)|auto].
  - apply go; auto.
Qed.

Theorem server_serves_forever ws : forall t, serving t -> Forall (fun w => forall c, w_accept w = Some c -> c <> 0) ws -> serving (u_passes ws t).
Proof.
  induction ws as [|w ws IH]; intros t HS HF; cbn [u_passes]; auto. inversion HF as [|? ? H1 H2]; subst.
  assert (T : u_thread t = Working) by (unfold serving in HS; tauto). rewrite T. apply IH; auto. apply server_serves; auto.
Qed.

(** ** Descriptor 0 *)
Definition zero_server : utransport := snd (u_serve {| c_socket := Some 0; c_bind := true; c_listen := true; c_connect := true |}).

Theorem zero_server_stops : let t := u_pass {| w_ready := [0]; w_accept := Some 3; w_receives := fun _ => true |} zero_server in
  u_running t = false /\ u_thread t = Finished.
Proof. vm_compute. auto. Qed.

(** A client that was given descriptor 0 is taken for unconnected, and all its requests fail. *)
Theorem zero_client c : c_socket c = Some 0 -> c_connect c = true -> let t := snd (u_connect c) in
  fst (u_connect c) = true /\ u_is_connected t = false /\ u_request t = RError.
Proof. intros E1 E2. unfold u_connect. rewrite E1, E2. cbn. auto. Qed.

(** ** The connection of a client is lost *)
Theorem client_lost w t fd : u_client t = fd -> fd <> 0 -> u_server t = 0 -> u_conns t = [fd] -> u_thread t = Working -> u_listen t = None ->
  In fd (w_ready w) -> w_receives w fd = false ->
  let t' := u_pass w t in u_is_connected t' = false /\ u_request t' = RError /\ u_conns t' = [] /\ u_thread t' = Finished /\ destroy t' = Destroyed [].
Proof.
  intros E1 Hfd E2 E3 E4 E5 Hr Hn. unfold u_pass. cbn zeta. rewrite E2, E3, E1, E5.
  assert (I0 : inb 0 [fd] = false) by (cbn; destruct fd; [congruence|reflexivity]).
  assert (I1 : inb fd [fd] = true) by (cbn; now rewrite Nat.eqb_refl).
  assert (I2 : inb fd (w_ready w) = true) by (now apply inb_In).
  rewrite I0, andb_false_r, I1, I2. cbn [w_receives andb]. rewrite Hn. cbn [andb negb].
  assert (I3 : inb fd (filter (fun x => inb x [fd]) (w_ready w)) = true) by (apply inb_In; apply filter_In; auto).
  cbn [u_conns]. rewrite E3. cbn [fold_left u_server u_client]. rewrite E2.
  replace (fd =? 0) with false by (symmetry; now apply Nat.eqb_neq). cbn [orb].
  unfold serve_conn. cbn [w_ready w_receives]. rewrite I3, Hn. cbn [andb negb u_server u_client u_conns u_running u_thread].
  unfold remove_fd. cbn [filter]. rewrite Nat.eqb_refl. cbn [negb]. unfold u_is_connected, u_request, destroy. cbn. auto.
Qed.

(** ** Descriptor reuse *)
Theorem shutdown_hits_other : exists f fd other, ft_lookup fd f = Some 1 /\ other <> 1 /\ In other (ft_cut (drop_connection fd [] [other] [] f)) /\ ft_cut f = [].
Proof. exists {| ft_open := [(0, 0); (1, 1)]; ft_cut := [] |}, 1, 7. vm_compute. repeat split; auto. discriminate. Qed.

Lemma opens_cut os : forall f, ft_cut (fold_left (fun f c => fd_step c f) (map FOpen os) f) = ft_cut f.
Proof. induction os as [|o os IH]; intros f; cbn; auto. rewrite IH. reflexivity. Qed.

Theorem shutdown_quiet fd before after f : ft_cut (drop_connection fd before [] after f) = ft_cut f.
Proof.
  unfold drop_connection. cbn [map app]. rewrite fold_left_app. cbn [fold_left]. rewrite opens_cut. cbn [fd_step ft_cut ft_open].
  unfold ft_lookup. cbn [ft_open]. rewrite <- (opens_cut before f). match goal with |- context [find ?g ?l] => destruct (find g l) as [e|] eqn:E end; [|reflexivity].
  apply find_some in E. destruct E as [E1 E2]. apply filter_In in E1. destruct E1 as [_ E1]. rewrite E2 in E1. discriminate.
Qed.

(** What else is open stays open, whatever happens meanwhile. *)
Lemma lowest_or k : forall n used, inb (lowest n k used) used = false \/ (lowest n k used = n + k /\ forall i, n <= i < n + k -> In i used).
Proof.
  induction k as [|k IH]; intros n used; cbn [lowest].
  - right. split; [lia|]. intros i Hi. lia.
  - destruct (inb n used) eqn:E; [|left; exact E]. destruct (IH (S n) used) as [H|(H & HI)]; [left; exact H|]. right. split; [lia|].
    intros i Hi. destruct (Nat.eq_dec i n) as [->|N]; [now apply inb_In|]. apply HI. lia.
Qed.
Lemma lowest_free used : ~ In (lowest 0 (length used) used) used.
Proof.
  destruct (lowest_or (length used) 0 used) as [H|(H & HI)]; intros C.
  - apply inb_In in C. rewrite C in H. discriminate H.
  - assert (L : length (seq 0 (S (length used))) <= length used).
    { apply NoDup_incl_length; [apply seq_NoDup|]. intros i Hi. apply in_seq in Hi. destruct (Nat.eq_dec i (length used)) as [->|N]; [rewrite H in C; cbn in C; exact C|]. apply HI. lia. }
    rewrite seq_length in L. lia.
Qed.
Lemma lookup_in n o f : NoDup (map fst (ft_open f)) -> (ft_lookup n f = Some o <-> In (n, o) (ft_open f)).
Proof.
  unfold ft_lookup. induction (ft_open f) as [|[k v] l IH]; cbn [find map fst]; intros ND; [split; [discriminate|intros []]|]. inversion ND as [|? ? N ND']; subst.
  destruct (Nat.eqb_spec k n) as [->|Nk]; cbn [snd].
  - split; [intros E; injection E as ->; now left|]. intros [E|Hin]; [now injection E as ->|]. destruct N. change n with (fst (n, o)). now apply in_map.
  - rewrite (IH ND'). split; [now right|]. intros [E|Hin]; [injection E as -> _; now destruct Nk|exact Hin].
Qed.
Lemma open_nodup c f : NoDup (map fst (ft_open f)) -> NoDup (map fst (ft_open (fd_step c f))).
Proof.
  intros ND. destruct c as [fd|fd|o]; cbn [fd_step ft_open]; [|exact ND|].
  - induction (ft_open f) as [|[k v] l IH]; [constructor|]. cbn [map fst filter] in *. inversion ND as [|? ? N ND']; subst. destruct (negb (k =? fd)); [|exact (IH ND')]. cbn [map fst]. constructor; [|exact (IH ND')].
    intros Hin. apply N. apply in_map_iff in Hin. destruct Hin as (e & <- & He). apply filter_In in He. apply in_map. tauto.
  - cbn [map fst]. constructor; [|exact ND]. rewrite <- (map_length fst (ft_open f)). apply lowest_free.
Qed.
Lemma opens_keep os : forall f, NoDup (map fst (ft_open f)) ->
  let f' := fold_left (fun f c => fd_step c f) (map FOpen os) f in
  NoDup (map fst (ft_open f')) /\ (forall e, In e (ft_open f) -> In e (ft_open f')) /\ (forall o, In o os -> exists n, In (n, o) (ft_open f') /\ ~ In n (map fst (ft_open f))) /\
  (forall e, In e (ft_open f') -> In e (ft_open f) \/ In (snd e) os).
Proof.
  induction os as [|o os IH]; intros f ND; cbn [map fold_left]; [split; [exact ND|]; split; [auto|]; split; [intros o []|auto]|].
  destruct (IH (fd_step (FOpen o) f) (open_nodup (FOpen o) f ND)) as (H1 & H2 & H3 & H4). split; [exact H1|]. split; [|split].
  - intros e He. apply H2. now right.
  - intros o' [<-|Ho].
    + eexists. split; [apply H2; now left|]. rewrite <- (map_length fst (ft_open f)). apply lowest_free.
    + destruct (H3 o' Ho) as (n & Hn & Nn). exists n. split; [exact Hn|]. intros C. apply Nn. now right.
  - intros e He. destruct (H4 e He) as [[<-|X]|X]; [right; now left|now left|right; now right].
Qed.
Theorem shutdown_others fd before between after f : NoDup (map fst (ft_open f)) -> ft_lookup fd f <> None ->
  let f' := drop_connection fd before between after f in
  (forall n o, ft_lookup n f = Some o -> n <> fd -> ft_lookup n f' = Some o) /\
  (forall o, In o (before ++ between ++ after) -> exists n, ft_lookup n f' = Some o) /\
  (ft_cut f' = ft_cut f \/ exists o, In o between /\ ft_cut f' = o :: ft_cut f) /\
  (between = [] -> ft_cut f' = ft_cut f).
Proof.
  intros ND Hfd f'.
  assert (Ef : f' = fold_left (fun f c => fd_step c f) (map FOpen after) (fd_step (FShutdown fd) (fold_left (fun f c => fd_step c f) (map FOpen between) (fd_step (FClose fd) (fold_left (fun f c => fd_step c f) (map FOpen before) f))))).
  { subst f'. unfold drop_connection. rewrite fold_left_app. cbn [app fold_left]. rewrite fold_left_app. reflexivity. }
  clearbody f'.
  destruct (opens_keep before f ND) as (A1 & A2 & A3 & A4). pose proof (opens_cut before f) as AC. set (f1 := fold_left _ (map FOpen before) f) in *.
  assert (B1 := open_nodup (FClose fd) f1 A1). set (f2 := fd_step (FClose fd) f1) in *.
  destruct (opens_keep between f2 B1) as (C1 & C2 & C3 & C4). pose proof (opens_cut between f2) as CC. set (f3 := fold_left _ (map FOpen between) f2) in *.
  assert (D1 := open_nodup (FShutdown fd) f3 C1). set (f4 := fd_step (FShutdown fd) f3) in *.
  destruct (opens_keep after f4 D1) as (E1 & E2 & E3 & _). pose proof (opens_cut after f4) as EC. rewrite <- Ef in E1, E2, E3, EC.
  assert (K : forall n o, In (n, o) (ft_open f1) -> n <> fd -> In (n, o) (ft_open f')).
  { intros n o Hin Nn. apply E2. change (ft_open f4) with (ft_open f3). apply C2. apply filter_In. split; [exact Hin|]. cbn [fst]. destruct (Nat.eqb_spec n fd); [contradiction|reflexivity]. }
  assert (KC : ft_cut f' = ft_cut f \/ exists o, In o between /\ ft_cut f' = o :: ft_cut f).
  { rewrite EC. cbn [f4 fd_step ft_cut]. destruct (ft_lookup fd f3) as [o|] eqn:El; [|left; rewrite CC; exact AC]. right. exists o. split; [|rewrite CC; cbn [f2 fd_step ft_cut]; rewrite AC; reflexivity].
    apply (lookup_in fd o f3 C1) in El. destruct (C4 _ El) as [X|X]; [|exact X]. apply filter_In in X. destruct X as [_ X]. cbn [fst] in X. rewrite Nat.eqb_refl in X. discriminate X. }
  split; [|split; [|split; [exact KC|]]].
  - intros n o Hl Nn. apply (lookup_in n o f ND) in Hl. apply (lookup_in n o f' E1). apply K; [apply A2; exact Hl|exact Nn].
  - intros o Ho. rewrite !in_app_iff in Ho. destruct Ho as [Ho|[Ho|Ho]].
    + destruct (A3 o Ho) as (n & Hn & Nn). exists n. apply (lookup_in n o f' E1). apply K; [exact Hn|]. intros ->. apply Nn. destruct (ft_lookup fd f) as [o'|] eqn:El; [|now destruct Hfd].
      apply (lookup_in fd o' f ND) in El. change fd with (fst (fd, o')). now apply in_map.
    + destruct (C3 o Ho) as (n & Hn & _). exists n. apply (lookup_in n o f' E1). apply E2. exact Hn.
    + destruct (E3 o Ho) as (n & Hn & _). exists n. apply (lookup_in n o f' E1). exact Hn.
  - intros ->. destruct KC as [X|(o & [] & _)]; exact X.
Qed.
Example others_open : NoDup (map fst (ft_open {| ft_open := [(4, 1); (3, 2)]; ft_cut := [] |})) /\
  ft_open (drop_connection 4 [7] [8; 9] [] {| ft_open := [(4, 1); (3, 2)]; ft_cut := [] |}) = [(2, 9); (1, 8); (0, 7); (3, 2)].
Proof. split; [repeat constructor; cbn; lia|reflexivity]. Qed.

(** ** Endpoints *)
Theorem endpoint_dangles : exists os, ep_run os ep0 = EpUB.
Proof. exists [EpNewTransport 1; EpAttach 5 1; EpDestroy 1; EpUse 5]. reflexivity. Qed.

(** Without a transport an endpoint reports the error. *)
Theorem endpoint_unattached w e : (forall t, ~ In (e, t) (we_ptr w)) -> ep_step (EpUse e) w = EpThrows w.
Proof.
  intros H. cbn. destruct (find (fun p => fst p =? e) (we_ptr w)) as [[e' t]|] eqn:E; [|reflexivity].
  apply find_some in E. destruct E as [E1 E2]. cbn in E2. apply Nat.eqb_eq in E2. subst e'. destruct (H t E1).
Qed.

(** If no transport is destroyed while an endpoint that was ever attached to it is used again, nothing bad happens. *)
Theorem endpoint_safe os : forall w, (forall t, ~ In (EpDestroy t) os) -> (forall e t, In (e, t) (we_ptr w) -> In t (we_alive w)) -> ep_run os w <> EpUB.
Proof.
  induction os as [|o os IH]; intros w Hd Hw; cbn [ep_run]; [discriminate|].
  assert (Hd' : forall t, ~ In (EpDestroy t) os) by (intros t Ht; apply (Hd t); now right).
  destruct o as [t|e t|t|e]; cbn [ep_step].
  - destruct (inb t (we_alive w)); [discriminate|]. apply IH; auto. cbn. intros e0 t0 Hin. right. eauto.
  - destruct (inb t (we_alive w)) eqn:E; [|discriminate]. apply IH; auto. cbn. intros e0 t0 [X|X]; [injection X as <- <-; now apply inb_In|eauto].
  - destruct (Hd t). now left.
  - destruct (find (fun p => fst p =? e) (we_ptr w)) as [[e' t]|] eqn:E; [|now apply IH]. apply find_some in E. destruct E as [E1 _].
    apply Hw in E1. apply inb_In in E1. rewrite E1. now apply IH.
Qed.

Theorem server_refuses ws t : serving t -> Forall (fun w => forall c, w_accept w = Some c -> c <> 0) ws -> u_request (u_passes ws t) = RError.
Proof. intros HS HF. destruct (server_serves_forever ws t HS HF) as (_ & E & _). unfold u_request. now rewrite E. Qed.
