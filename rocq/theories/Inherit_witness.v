(** Concrete cases for C85. *)
From Coq Require Import List Arith Bool Lia.
Import ListNotations.
From Verif Require Import UnixSystem_model Inherit_model Inherit_spec Inherit_proofs.

(** Process 0 has number 10 and serves; process 1 is a recorder and connects; process 2, number 11, is a child of process 0. *)
Definition common : list label := [Start 10; Serve 0; Start 20; Connect 1 10; Accept 0; Fork 0 11].
Definition ended : list label := common ++ [End 0].
Definition destroyed : list label := common ++ [Destroy 0].
Definition waits : list label := ended ++ [Connect 1 10; Leave 1; Connect 1 10; Leave 2; Connect 1 10; Leave 3; Connect 1 10; Leave 4; Connect 1 10; Leave 5; Connect 1 10].
Definition recycled : list label := ended ++ [Start 10].

Lemma one_server w s : w_servers w = [s] -> s_up s && alive w (s_maker s) = false -> forall l pid, ~ serves w l pid.
Proof.
  intros E F l pid (t & H & _ & U & A). rewrite E in H. destruct l as [|[|l]]; try discriminate H. injection H as <-. rewrite U, A in F. discriminate F.
Qed.

Lemma inherit_fails :
  (exists h w, run h world0 = Some w /\ (forall l pid, ~ serves w l pid) /\ discovered w = [10] /\ client_there w 0 /\ server_end w 0 = true /\ alive w 0 = false) /\
  (exists h w, run h world0 = Some w /\ (forall l pid, ~ serves w l pid) /\ discovered w = [10] /\ client_there w 0 /\ server_end w 0 = true /\ alive w 0 = true) /\
  (exists h w, run h world0 = Some w /\ (forall l pid, ~ serves w l pid) /\ connecting 10 w = Blocks) /\
  (exists h w x, run h world0 = Some w /\ (forall l pid, ~ serves w l pid) /\ nth_error (w_procs w) 3 = Some x /\ p_alive x = true /\ p_pid x = 10 /\ step (Serve 3) w = Some w).
Proof.
  split; [|split; [|split]].
  - exists ended. eexists. split; [vm_compute; reflexivity|]. split; [eapply one_server; reflexivity|]. split; [reflexivity|]. split; [eexists; split; [reflexivity|split; reflexivity]|]. split; reflexivity.
  - exists destroyed. eexists. split; [vm_compute; reflexivity|]. split; [eapply one_server; reflexivity|]. split; [reflexivity|]. split; [eexists; split; [reflexivity|split; reflexivity]|]. split; reflexivity.
  - exists waits. eexists. split; [vm_compute; reflexivity|]. split; [eapply one_server; reflexivity|]. reflexivity.
  - exists recycled. eexists. eexists. split; [vm_compute; reflexivity|]. split; [eapply one_server; reflexivity|]. split; [reflexivity|]. split; [reflexivity|]. split; reflexivity.
Qed.

(** Two servers, one of which has ended together with its child, and two connections: nothing is left over. *)
Definition orderly : list label := [Start 10; Serve 0; Start 20; Serve 1; Start 30; Connect 2 10; Connect 2 20; Accept 0; Fork 0 11; End 0; End 3; Accept 1].
Example orderly_case : exists w, run orderly world0 = Some w /\ (forall l s, nth_error (w_servers w) l = Some s -> childless w (s_maker s)) /\ childless w 2 /\
  discovered w = [20] /\ client_there w 0 /\ server_end w 0 = false /\ client_there w 1 /\ server_end w 1 = true /\ step (Serve 2) w <> None.
Proof.
  eexists. split; [vm_compute; reflexivity|]. split; [|split; [|split; [reflexivity|split; [|split; [reflexivity|split; [|split; [reflexivity|vm_compute; discriminate]]]]]]].
  - intros [|[|[|l]]] s H; try discriminate H; injection H as <-; intros [|[|[|[|[|p]]]]] A D; try discriminate A; try reflexivity; exfalso;
      inversion D as [|? x p' H1 H2 H3]; subst; cbn in H1; injection H1 as <-; discriminate H2.
  - intros [|[|[|[|[|p]]]]] A D; try discriminate A; try reflexivity; exfalso; inversion D as [|? x p' H1 H2 H3]; subst; cbn in H1; injection H1 as <-; discriminate H2.
  - eexists. split; [reflexivity|split; reflexivity].
  - eexists. split; [reflexivity|split; reflexivity].
Qed.

(** The cases of a child that stays: the server is there when the child is made, the child is there at the end. *)
Example heir_case : exists w1 w2, run [Start 10; Serve 0; Start 20; Connect 1 10; Accept 0] world0 = Some w1 /\ serves w1 0 10 /\ client_there w1 0 /\
  run [Fork 0 11; Fork 1 21; End 0; End 1] w1 = Some w2 /\ alive w2 2 = true /\ alive w2 3 = true /\ discovered w2 = [10] /\ server_end w2 0 = true /\ held (ClientEnd 0) w2 = true.
Proof.
  eexists. eexists. split; [vm_compute; reflexivity|]. split; [eexists; split; [reflexivity|split; [reflexivity|split; reflexivity]]|]. split; [eexists; split; [reflexivity|split; reflexivity]|].
  split; [vm_compute; reflexivity|]. repeat split.
Qed.
Example orphan_case : exists w1 w2, run waits world0 = Some w1 /\ ~ serves w1 0 10 /\ 5 < queue 0 w1 /\ run [Start 40] w1 = Some w2 /\ held (Listener 0) w2 = true /\ connecting 10 w2 = Blocks /\ step (Connect 3 10) w2 = None.
Proof.
  eexists. eexists. split; [vm_compute; reflexivity|]. split; [eapply one_server; reflexivity|]. split; [vm_compute; lia|]. split; [vm_compute; reflexivity|]. repeat split.
Qed.
