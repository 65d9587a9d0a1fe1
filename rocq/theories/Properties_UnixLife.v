(** The property theorems about making, using and destroying transports: C46, C53, C55, C56, C57. *)
From Coq Require Import List Arith Bool.
Import ListNotations.
From Verif Require Import UnixLife_model UnixLife_proofs.

(** * C46 *)
(** Every failure to serve or to connect terminates the process: the destructor joins a thread that was never started. *)
Theorem C46_serve_failure_refuted : forall c, fst (u_serve c) = false -> factory (u_serve c) = FTerminate.
Proof. exact serve_failure. Qed.
Print Assumptions C46_serve_failure_refuted.

Theorem C46_connect_failure_refuted : forall c, fst (u_connect c) = false -> factory (u_connect c) = FTerminate.
Proof. exact connect_failure. Qed.
Print Assumptions C46_connect_failure_refuted.

(** When all system calls succeed a transport is handed out that works and says it is connected (descriptor 0 is C56). *)
Theorem C46_serve_success_partial : forall c fd, c_socket c = Some fd -> c_bind c = true -> c_listen c = true ->
  exists t, factory (u_serve c) = Got t /\ u_thread t = Working /\ u_conns t = [fd] /\ (fd <> 0 -> u_is_connected t = true).
Proof. exact serve_success. Qed.
Print Assumptions C46_serve_success_partial.

Theorem C46_connect_success_partial : forall c fd, c_socket c = Some fd -> c_connect c = true ->
  exists t, factory (u_connect c) = Got t /\ u_thread t = Working /\ u_conns t = [fd] /\ (fd <> 0 -> u_is_connected t = true).
Proof. exact connect_success. Qed.
Print Assumptions C46_connect_success_partial.

Example C46_failures_exist : fst (u_serve {| c_socket := Some 5; c_bind := false; c_listen := true; c_connect := true |}) = false /\
  fst (u_connect {| c_socket := Some 5; c_bind := true; c_listen := true; c_connect := false |}) = false /\
  fst (u_connect {| c_socket := None; c_bind := true; c_listen := true; c_connect := true |}) = false.
Proof. auto. Qed.

(** A transport that is handed out can be destroyed after any passes of its worker (that return), and its connections are closed. *)
Theorem C46_destroy_partial : forall c ws t made, made = u_serve c \/ made = u_connect c -> factory made = Got t ->
  destroy (u_passes ws t) = Destroyed (u_conns (u_passes ws t)).
Proof. exact destroy_after. Qed.
Print Assumptions C46_destroy_partial.

Example C46_destroy_example : exists t, factory (u_serve {| c_socket := Some 5; c_bind := true; c_listen := true; c_connect := true |}) = Got t /\
  destroy (u_passes [{| w_ready := [5]; w_accept := Some 6; w_receives := fun _ => true |}; {| w_ready := [5; 6]; w_accept := Some 7; w_receives := fun _ => false |}] t) = Destroyed [7; 5].
Proof. eexists. split; [reflexivity|]. vm_compute. reflexivity. Qed.

(** * C53 *)
(** A Unix socket transport without a connection (a server, or a client that lost it) refuses requests with an error. *)
Theorem C53_unix_partial : forall w t fd, u_client t = fd -> fd <> 0 -> u_server t = 0 -> u_conns t = [fd] -> u_thread t = Working -> u_listen t = None ->
  In fd (w_ready w) -> w_receives w fd = false ->
  let t' := u_pass w t in u_is_connected t' = false /\ u_request t' = RError /\ u_conns t' = [] /\ u_thread t' = Finished /\ destroy t' = Destroyed [].
Proof. exact client_lost. Qed.
Print Assumptions C53_unix_partial.

Theorem C53_unix_server : forall ws t, serving t -> Forall (fun w => forall c, w_accept w = Some c -> c <> 0) ws -> u_request (u_passes ws t) = RError.
Proof. exact server_refuses. Qed.
Print Assumptions C53_unix_server.

Example C53_example : let t := snd (u_connect {| c_socket := Some 4; c_bind := true; c_listen := true; c_connect := true |}) in
  u_client t = 4 /\ u_server t = 0 /\ u_conns t = [4] /\ u_thread t = Working /\ u_listen t = None /\ u_request t = RTried.
Proof. cbn. auto 7. Qed.

(** * C55 *)
Theorem C55_dangling_endpoint_refuted : exists os, ep_run os ep0 = EpUB.
Proof. exact endpoint_dangles. Qed.
Print Assumptions C55_dangling_endpoint_refuted.

Theorem C55_unattached_partial : forall w e, (forall t, ~ In (e, t) (we_ptr w)) -> ep_step (EpUse e) w = EpThrows w.
Proof. exact endpoint_unattached. Qed.
Print Assumptions C55_unattached_partial.

Theorem C55_alive_partial : forall os w, (forall t, ~ In (EpDestroy t) os) -> (forall e t, In (e, t) (we_ptr w) -> In t (we_alive w)) -> ep_run os w <> EpUB.
Proof. exact endpoint_safe. Qed.
Print Assumptions C55_alive_partial.

Example C55_example : ep_run [EpUse 5; EpNewTransport 1; EpAttach 5 1; EpUse 5] ep0 = EpOk {| we_alive := [1]; we_ptr := [(5, 1)] |}.
Proof. reflexivity. Qed.

(** * C56 *)
(** A server that was given descriptor 0 stops when the first client connects. *)
Theorem C56_zero_server_refuted : exists t, factory (u_serve {| c_socket := Some 0; c_bind := true; c_listen := true; c_connect := true |}) = Got t /\
  let t' := u_pass {| w_ready := [0]; w_accept := Some 3; w_receives := fun _ => true |} t in u_running t' = false /\ u_thread t' = Finished.
Proof. exact (ex_intro _ zero_server (conj eq_refl zero_server_stops)). Qed.
Print Assumptions C56_zero_server_refuted.

Theorem C56_zero_client_refuted : forall c, c_socket c = Some 0 -> c_connect c = true -> let t := snd (u_connect c) in
  fst (u_connect c) = true /\ u_is_connected t = false /\ u_request t = RError.
Proof. exact zero_client. Qed.
Print Assumptions C56_zero_client_refuted.

(** With other descriptors, a server goes on serving whatever its clients do. *)
Theorem C56_other_descriptors_partial : forall ws t, serving t -> Forall (fun w => forall c, w_accept w = Some c -> c <> 0) ws -> serving (u_passes ws t).
Proof. exact server_serves_forever. Qed.
Print Assumptions C56_other_descriptors_partial.

Example C56_example : serving (snd (u_serve {| c_socket := Some 5; c_bind := true; c_listen := true; c_connect := true |})).
Proof. unfold serving. cbn. intuition discriminate. Qed.

(** * C57 *)
Theorem C57_shutdown_of_another_refuted : exists f fd other, ft_lookup fd f = Some 1 /\ other <> 1 /\ In other (ft_cut (drop_connection fd [] [other] [] f)) /\ ft_cut f = [].
Proof. exact shutdown_hits_other. Qed.
Print Assumptions C57_shutdown_of_another_refuted.

(** If no other thread opens anything between the two calls, the second one has no effect at all. *)
Theorem C57_undisturbed_partial : forall fd before after f, ft_cut (drop_connection fd before [] after f) = ft_cut f.
Proof. exact shutdown_quiet. Qed.
Print Assumptions C57_undisturbed_partial.

(** Whatever is opened meanwhile: every other descriptor still means what it meant, everything opened is open, and at most one object is cut off, one that was
    opened between the close and the shutdown. *)
Theorem C57_others : forall fd before between after f, NoDup (map fst (ft_open f)) -> ft_lookup fd f <> None ->
  let f' := drop_connection fd before between after f in
  (forall n o, ft_lookup n f = Some o -> n <> fd -> ft_lookup n f' = Some o) /\
  (forall o, In o (before ++ between ++ after) -> exists n, ft_lookup n f' = Some o) /\
  (ft_cut f' = ft_cut f \/ exists o, In o between /\ ft_cut f' = o :: ft_cut f) /\
  (between = [] -> ft_cut f' = ft_cut f).
Proof. exact shutdown_others. Qed.
Print Assumptions C57_others.
