(** The property theorems about the loopback transport: C10, C51, C52, C53. *)
From Coq Require Import List Arith NArith Ascii Bool.
Import ListNotations.
From Verif Require Import Protocol_model UnixSystem_model UnixSystem_witness Loopback_model Loopback_spec Loopback_proofs.

(** * C10 *)
(** Requests are executed in the order they were made, each at most once. *)
Theorem C10_served_in_order : forall s, l_reached s -> increasing (request_numbers s).
Proof. exact served_in_order. Qed.
Print Assumptions C10_served_in_order.

(** After its pass, a request has been executed exactly once, with its own endpoint and payload, and its future
    has the answer, or the error of a broken promise if the endpoint declined; the only other possibility is that the
    caller had released the future, and then it was not executed. *)
Theorem C10_outcome : forall s r x, l_reached s -> nth_error (lo_reqs s) r = Some x -> passed s r ->
  (executions r s = [] /\ lr_held x = false) \/
  exists ans, executions r s = [(lr_name x, lr_data x, ans)] /\ lr_val x = match ans with Some d => LValue d | None => LBroken end.
Proof. exact request_outcome. Qed.
Print Assumptions C10_outcome.

(** At any moment, a value in a future is the answer of its endpoint to its payload. *)
Theorem C10_value_is_answer : forall s r x d, l_reached s -> nth_error (lo_reqs s) r = Some x -> lr_val x = LValue d ->
  executions r s = [(lr_name x, lr_data x, Some d)].
Proof. exact value_is_answer. Qed.
Print Assumptions C10_value_is_answer.

(** Once its future has been released a request is not executed any more. *)
Theorem C10_abandoned_not_executed : forall ls s s' r x, nth_error (lo_reqs s) r = Some x -> lr_held x = false ->
  lrun ls s = LNext s' -> executions r s' = executions r s.
Proof. exact abandoned_not_executed. Qed.
Print Assumptions C10_abandoned_not_executed.

(** When a pass ends nothing is pending and every request made so far has gone through its pass. *)
Theorem C10_pass_empties : forall s s', l_reached s -> lstep LEnd s = LNext s' ->
  l_pending s' = 0 /\ forall r, r < length (lo_reqs s') -> passed s' r.
Proof. exact pass_end_empty. Qed.
Print Assumptions C10_pass_empties.

(** The worker completes a pass over everything pending if all requests in demand are to endpoints that exist. *)
Theorem C10_pass_completes_partial : forall s, l_reached s -> lo_todo s = None -> known_eps s -> forall ans,
  exists s', lrun (LBegin :: repeat (LServe ans) (l_pending s) ++ [LEnd]) s = LNext s' /\ l_pending s' = 0 /\ length (lo_reqs s') = length (lo_reqs s).
Proof. exact pass_completes. Qed.
Print Assumptions C10_pass_completes_partial.

(** A request to an endpoint the server does not have is not turned into an error: the worker stores the error and then
    calls through the null pointer. *)
Theorem C10_unknown_endpoint_refuted : forall s r rest x ans, lo_todo s = Some (r :: rest) -> nth_error (lo_reqs s) r = Some x ->
  lr_held x = true -> mem (lr_name x) (lo_eps s) = false -> lstep (LServe ans) s = LUB.
Proof. exact unknown_endpoint_ub. Qed.
Print Assumptions C10_unknown_endpoint_refuted.

(** There is no other undefined behaviour in serving requests. *)
Theorem C10_only_unknown_endpoint : forall s l, lstep l s = LUB -> exists r rest x, lo_todo s = Some (r :: rest) /\ nth_error (lo_reqs s) r = Some x /\
  lr_held x = true /\ mem (lr_name x) (lo_eps s) = false.
Proof. exact ub_only_unknown. Qed.
Print Assumptions C10_only_unknown_endpoint.

(** So only a request for an endpoint that has never been added brings the worker down: one that was added at any time stays. *)
Theorem C10_never_added : forall ls l s, lrun ls lo0 = LNext s -> lstep l s = LUB -> exists n d, In (LRequest n d) ls /\ ~ In (LAddEp n) ls.
Proof. exact only_never_added. Qed.
Print Assumptions C10_never_added.

Example C10_unknown_endpoint_example : lrun [LAddEp b_e; LRequest b_A b_p; LBegin; LServe None] lo0 = LUB.
Proof. reflexivity. Qed.

(** Three requests, one abandoned, one declined. *)
Example C10_example : exists s, lrun [LAddEp b_e; LRequest b_e b_A; LRequest b_e b_B; LRequest b_e b_p; LDrop 1; LBegin; LServe (Some b_p); LServe None; LServe None; LEnd] lo0 = LNext s /\
  map lr_val (lo_reqs s) = [LValue b_p; LBroken; LBroken] /\ lo_calls s = [(0, b_e, b_A, Some b_p); (2, b_e, b_p, None)] /\ passed s 0 /\ passed s 1 /\ passed s 2 /\ known_eps s.
Proof.
  eexists. split; [vm_compute; reflexivity|]. repeat (split; [vm_compute; intuition Lia.lia|]).
  intros r x E _. change (mem (lr_name x) [b_e] = true). do 3 (destruct r as [|r]; [injection E as <-; reflexivity|]). destruct r; discriminate.
Qed.

(** * C51 *)
Theorem C51_each_client_once : forall answer server_handle seps cs rq log log', broadcasts answer server_handle seps cs rq log = BNext log' ->
  forall i c, nth_error cs i = Some c ->
  got i log' = got i log ++ filter (fun b => lc_alive c && mem (fst b) (lc_eps c)) rq.
Proof. exact broadcasts_got. Qed.
Print Assumptions C51_each_client_once.

(** If the client endpoints do not answer, the worker delivers everything. *)
Theorem C51_delivered_partial : forall answer server_handle seps cs, (forall i n d, answer i n d = None) -> forall rq log,
  exists log', broadcasts answer server_handle seps cs rq log = BNext log'.
Proof. exact broadcasts_quiet. Qed.
Print Assumptions C51_delivered_partial.

(** A client endpoint that answers a broadcast brings down the server's worker, whether or not the server has an
    endpoint of that name. *)
Theorem C51_answer_refuted :
  broadcasts (fun _ _ _ => Some b_p) (fun _ _ => None) [] [{| lc_alive := true; lc_eps := [b_e] |}] [(b_e, b_A)] [] = BUB /\
  broadcasts (fun _ _ _ => Some b_p) (fun _ _ => Some b_p) [b_e] [{| lc_alive := true; lc_eps := [b_e] |}] [(b_e, b_A)] [] = BTerminate.
Proof. split; reflexivity. Qed.
Print Assumptions C51_answer_refuted.

Example C51_example :
  broadcasts (fun _ _ _ => None) (fun _ _ => None) [] [{| lc_alive := true; lc_eps := [b_e] |}; {| lc_alive := false; lc_eps := [b_e] |}; {| lc_alive := true; lc_eps := [b_e; b_p] |}]
    [(b_p, b_A); (b_e, b_B)] [] = BNext [(2, b_p, b_A); (0, b_e, b_B); (2, b_e, b_B)].
Proof. reflexivity. Qed.

(** * C52 *)
Theorem C52_connect_during_broadcast_refuted : exists ls, krun ls k0 = KUB.
Proof. exists [KConnect; KBegin; KConnect; KNext]. exact connect_during_broadcast. Qed.
Print Assumptions C52_connect_during_broadcast_refuted.

(** Without a connection being made in the middle of an iteration, all is well, and every client is visited once. *)
Theorem C52_calm_partial : forall ls, calm k0 ls -> krun ls k0 <> KUB.
Proof. exact (fun ls => calm_no_ub ls k0 I). Qed.
Print Assumptions C52_calm_partial.

Theorem C52_iteration_partial : forall s, k_iter s = None ->
  exists s', krun (KBegin :: repeat KNext (S (k_len s))) s = KNextS s' /\ k_visited s' = seq 0 (k_len s) /\ k_iter s' = None.
Proof. exact iteration_complete. Qed.
Print Assumptions C52_iteration_partial.

Example C52_example : calm k0 [KConnect; KConnect; KBegin; KNext; KNext; KNext; KConnect; KBegin; KNext] /\
  krun [KConnect; KConnect; KBegin; KNext; KNext; KNext; KConnect; KBegin; KNext] k0 <> KUB.
Proof. split; [cbn; intuition discriminate|vm_compute; discriminate]. Qed.

(** * C53 *)
(** A request on a loopback server, which has no connection, is undefined behaviour when the worker comes to it. *)
Theorem C53_loopback_refuted : forall n d ans, lrun_unconnected [LRequest n d; LBegin; LServe ans] lo0 = LUB.
Proof. exact (fun n d ans => eq_refl). Qed.
Print Assumptions C53_loopback_refuted.

(** If the futures of all requests have been released before the worker comes to them, nothing is called, and the pass completes. *)
Theorem C53_loopback_released : forall ls s, lrun_unconnected ls lo0 = LNext s -> lo_todo s = None ->
  (forall r x, nth_error (lo_reqs s) r = Some x -> lr_held x = false) -> forall ans,
  exists s', lrun_unconnected (LBegin :: repeat (LServe ans) (l_pending s) ++ [LEnd]) s = LNext s' /\ l_pending s' = 0 /\ lo_calls s' = lo_calls s.
Proof. exact unconnected_released. Qed.
Print Assumptions C53_loopback_released.
Example C53_released_example : exists s, lrun_unconnected [LRequest b_e b_A; LRequest b_e b_B; LDrop 0; LDrop 1] lo0 = LNext s /\ lo_todo s = None /\ l_pending s = 2.
Proof. eexists. split; [reflexivity|]. split; reflexivity. Qed.
