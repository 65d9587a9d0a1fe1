(** Concrete cases for C88. *)
From Coq Require Import List Arith Bool Lia.
Import ListNotations.
From Verif Require Import UnixSystem_model Duplex_model Duplex_spec Duplex_proofs.

(** One client. *)
Definition one_client (up down out want : list cell) (worker : bool) (mycasts : list message) (got : nat) (send : list (nat * list cell)) (casts : list message) : duplex :=
  {| d_clients := [{| c_up := up; c_down := down; c_requests := []; c_casts := mycasts; c_out := out; c_worker := worker; c_want := want; c_mid := false; c_upgot := 0; c_downgot := got |}];
     d_send := send; d_mid := None; d_casts := casts |}.

Lemma srv_sends cap up out want worker mc got casts x tail j : forall down, length down + j <= cap ->
  d_run cap (repeat SrvSend j) (one_client up down out want worker mc got [(0, repeat More j ++ x :: tail)] casts) =
  Some (one_client up (down ++ repeat More j) out want worker mc got [(0, x :: tail)] casts).
Proof.
  induction j as [|j IH]; intros down H; cbn [repeat d_run app].
  - now rewrite app_nil_r.
  - cbn [d_step one_client d_send d_clients nth_error c_down]. replace (length down <? cap) with true by (symmetry; apply Nat.ltb_lt; lia).
    assert (E : forall A (a b : A), match repeat More j ++ x :: tail with [] => a | _ :: _ => b end = b) by (intros; destruct j; reflexivity). rewrite E.
    cbn [set_nth c_up c_out c_want c_worker c_requests c_casts c_mid c_upgot c_downgot d_mid d_casts].
    change (d_run cap (repeat SrvSend j) (one_client up (down ++ [More]) out want worker mc got [(0, repeat More j ++ x :: tail)] casts) =
      Some (one_client up (down ++ More :: repeat More j) out want worker mc got [(0, x :: tail)] casts)).
    rewrite (IH (down ++ [More])) by (rewrite app_length; cbn; lia). rewrite <- app_assoc. reflexivity.
Qed.
Lemma cli_sends cap down want worker mc got send casts x tail j : forall up, length up + j <= cap ->
  d_run cap (repeat (CliSend 0) j) (one_client up down (repeat More j ++ x :: tail) want worker mc got send casts) =
  Some (one_client (up ++ repeat More j) down (x :: tail) want worker mc got send casts).
Proof.
  induction j as [|j IH]; intros up H; cbn [repeat d_run app].
  - now rewrite app_nil_r.
  - cbn [d_step one_client d_clients nth_error c_out c_up]. replace (length up <? cap) with true by (symmetry; apply Nat.ltb_lt; lia).
    cbn [set_client set_nth c_down c_out c_want c_worker c_requests c_casts c_mid c_upgot c_downgot d_clients d_send d_mid d_casts].
    change (d_run cap (repeat (CliSend 0) j) (one_client (up ++ [More]) down (repeat More j ++ x :: tail) want worker mc got send casts) =
      Some (one_client (up ++ More :: repeat More j) down (x :: tail) want worker mc got send casts)).
    rewrite (IH (up ++ [More])) by (rewrite app_length; cbn; lia). rewrite <- app_assoc. reflexivity.
Qed.

Lemma cells_split cap n a : cap <= n -> exists x tail, cells {| m_more := n; m_answer := a |} = repeat More cap ++ x :: tail.
Proof.
  intros H. unfold cells. cbn [m_more m_answer]. replace n with (cap + (n - cap)) by lia. rewrite repeat_app, <- app_assoc.
  destruct (repeat More (n - cap) ++ [Last a]) as [|x t] eqn:E; [apply app_eq_nil in E; destruct E as (_ & E); discriminate E|]. now exists x, t.
Qed.

(** Both directions full and both workers sending: nobody can do anything. *)
Lemma blocked cap up down x out y tail mc got casts : 0 < cap -> length up = cap -> length down = cap ->
  stuck cap (one_client up down (x :: out) [] true mc got [(0, y :: tail)] casts).
Proof.
  intros Hc Hu Hd e. destruct e as [i| | |i|i|i|i|i]; cbn [d_step one_client d_send d_clients]; try reflexivity.
  - cbn [nth_error c_down]. rewrite Hd, Nat.ltb_irrefl. reflexivity.
  - destruct i as [|[|i]]; cbn [nth_error]; try reflexivity.
  - destruct i as [|[|i]]; cbn [nth_error c_out c_up]; try reflexivity. rewrite Hu, Nat.ltb_irrefl. reflexivity.
  - destruct i as [|[|i]]; cbn [nth_error]; reflexivity.
  - destruct i as [|[|i]]; cbn [nth_error]; reflexivity.
  - destruct i as [|[|i]]; cbn [nth_error]; reflexivity.
Qed.

(** A broadcast in each direction at the same time, both larger than the connection. *)
Theorem both_broadcast cap n1 n2 a1 a2 : 0 < cap -> cap <= n1 -> cap <= n2 ->
  exists es s, d_run cap es (duplex0 [([], [{| m_more := n2; m_answer := a2 |}])] [{| m_more := n1; m_answer := a1 |}]) = Some s /\ stuck cap s /\ ~ finished s.
Proof.
  intros Hc H1 H2. destruct (cells_split cap n1 a1 H1) as (x1 & t1 & E1). destruct (cells_split cap n2 a2 H2) as (x2 & t2 & E2).
  exists ([SrvCast] ++ repeat SrvSend cap ++ [CliCast 0; CliLock 0] ++ repeat (CliSend 0) cap).
  exists (one_client (repeat More cap) (repeat More cap) (x2 :: t2) [] true [] 0 [(0, x1 :: t1)] []). split; [|split].
  - rewrite (run_snoc cap [SrvCast] _ _ (one_client [] [] [] [] false [{| m_more := n2; m_answer := a2 |}] 0 [(0, repeat More cap ++ x1 :: t1)] [])).
    2: { cbn [d_run d_step duplex0 d_send d_mid d_casts d_clients map length seq]. rewrite E1. reflexivity. }
    rewrite (run_snoc cap _ _ _ _ (srv_sends cap [] [] [] false [{| m_more := n2; m_answer := a2 |}] 0 [] x1 t1 cap [] (Nat.le_refl _))). cbn [app].
    change (d_run cap (CliCast 0 :: CliLock 0 :: repeat (CliSend 0) cap)) with (d_run cap ([CliCast 0; CliLock 0] ++ repeat (CliSend 0) cap)).
    rewrite (run_snoc cap [CliCast 0; CliLock 0] _ _ (one_client [] (repeat More cap) (repeat More cap ++ x2 :: t2) [] true [] 0 [(0, x1 :: t1)] [])).
    2: { cbn [d_run d_step one_client d_clients nth_error worker_free c_want c_out c_mid c_casts andb negb].
         cbn [set_client set_nth d_clients d_send d_mid d_casts nth_error c_out c_want]. rewrite E2. destruct (repeat More cap ++ x2 :: t2) eqn:E; [destruct cap; discriminate E|]. reflexivity. }
    exact (cli_sends cap (repeat More cap) [] true [] 0 [(0, x1 :: t1)] [] x2 t2 cap [] (Nat.le_refl _)).
  - apply blocked; [exact Hc|apply repeat_length|apply repeat_length].
  - intros (_ & X & _). discriminate X.
Qed.

(** No broadcast of the client, but an endpoint that answers one of the server. *)
Theorem answers_broadcast cap n k a : 0 < cap -> cap <= n -> cap <= k ->
  exists es s, d_run cap es (duplex0 [([], [])] [{| m_more := 0; m_answer := Some k |}; {| m_more := n; m_answer := a |}]) = Some s /\ stuck cap s /\ ~ finished s.
Proof.
  intros Hc H1 H2. destruct (cells_split cap n a H1) as (x1 & t1 & E1). destruct (cells_split cap k None H2) as (x2 & t2 & E2).
  exists ([SrvCast; SrvSend; CliRead 0; CliLock 0] ++ repeat (CliSend 0) cap ++ [SrvCast] ++ repeat SrvSend cap).
  exists (one_client (repeat More cap) (repeat More cap) (x2 :: t2) [] true [] 1 [(0, x1 :: t1)] []). split; [|split].
  - rewrite (run_snoc cap [SrvCast; SrvSend; CliRead 0; CliLock 0] _ _ (one_client [] [] (repeat More cap ++ x2 :: t2) [] true [] 1 [] [{| m_more := n; m_answer := a |}])).
    2: { destruct cap as [|cap']; [lia|].
         cbn [d_run d_step duplex0 d_send d_mid d_casts d_clients map length seq client0 fst snd cells m_more m_answer repeat app nth_error c_down Nat.ltb Nat.leb].
         cbn [set_client set_nth d_clients d_send d_mid d_casts nth_error worker_free c_want c_out c_down c_up c_requests c_casts c_worker c_mid c_upgot c_downgot app].
         change (reply (Some k)) with (cells {| m_more := k; m_answer := None |}). rewrite E2. cbn [repeat app].
         cbn [set_client set_nth d_clients d_send d_mid d_casts nth_error worker_free c_want c_out c_down c_up c_requests c_casts c_worker c_mid c_upgot c_downgot app]. reflexivity. }
    rewrite (run_snoc cap _ _ _ _ (cli_sends cap [] [] true [] 1 [] [{| m_more := n; m_answer := a |}] x2 t2 cap [] (Nat.le_refl _))). cbn [app].
    change (d_run cap (SrvCast :: repeat SrvSend cap)) with (d_run cap ([SrvCast] ++ repeat SrvSend cap)).
    rewrite (run_snoc cap [SrvCast] _ _ (one_client (repeat More cap) [] (x2 :: t2) [] true [] 1 [(0, repeat More cap ++ x1 :: t1)] [])).
    2: { cbn [d_run d_step one_client d_send d_mid d_casts d_clients map length seq]. rewrite E1. reflexivity. }
    exact (srv_sends cap (repeat More cap) (x2 :: t2) [] true [] 1 [] x1 t1 cap [] (Nat.le_refl _)).
  - apply blocked; [exact Hc|apply repeat_length|apply repeat_length].
  - intros (_ & X & _). discriminate X.
Qed.

(** The good cases occur: two clients, requests with answers larger than the connection, a broadcast, all received. *)
Definition big (n : nat) (a : option nat) : message := {| m_more := n; m_answer := a |}.
Definition example : duplex := duplex0 [([big 5 (Some 7); big 0 None], []); ([big 3 (Some 0)], [])] [big 6 None].
Fixpoint drive (fuel cap : nat) (s : duplex) : list dstep * duplex :=
  match fuel with
  | 0 => ([], s)
  | S f =>
      match find (fun e => match d_step cap e s with Some _ => true | None => false end)
              [SrvCast; SrvSend; SrvRead 0; SrvRead 1; CliRequest 0; CliSend 0; CliRead 0; CliLock 0; CliCast 0; CliRequest 1; CliSend 1; CliRead 1; CliLock 1; CliCast 1] with
      | Some e => match d_step cap e s with Some s' => let '(es, t) := drive f cap s' in (e :: es, t) | None => ([], s) end
      | None => ([], s)
      end
  end.
Example completes : exists es s, d_run 2 es example = Some s /\ finished s /\
  map (fun c => (c_upgot c, c_downgot c)) (d_clients s) = [(2, 2); (1, 2)].
Proof.
  exists (fst (drive 500 2 example)), (snd (drive 500 2 example)). split; [vm_compute; reflexivity|]. split; [|vm_compute; reflexivity].
  split; [|vm_compute; repeat split]. vm_compute. repeat constructor.
Qed.
(** A client's broadcast alone is no problem. *)
Example completes_cast : exists es s, d_run 2 es (duplex0 [([], [big 9 (Some 9)])] [big 1 None]) = Some s /\ finished s.
Proof.
  exists (fst (drive 500 2 (duplex0 [([], [big 9 (Some 9)])] [big 1 None]))), (snd (drive 500 2 (duplex0 [([], [big 9 (Some 9)])] [big 1 None]))).
  split; [vm_compute; reflexivity|]. split; [|vm_compute; repeat split]. vm_compute. repeat constructor.
Qed.
