(** Cases about objects on both sides of the Python bindings (C97). *)
From Coq Require Import List Arith Bool Lia.
Import ListNotations.
From Verif Require Import PyLife_model PyLife_spec PyLife_proofs.

(** A server with an endpoint that remembers it; then the program forgets both. *)
Definition circle : list op := [Serve 0; New 1; SetAttr 1 0 0; Add 0 5 1; Del 0; Del 1].
(** A connection of a manager whose endpoint remembers its transport; the connection is lost. *)
Definition circle2 : list op := [Connect 5 (Some 0); Lose 0].

(** Nothing is left for the collector if every reference to a Python object is of another kind than an attribute. *)
Lemma gc_nothing s l : s_over s = false -> sound s -> full s -> (forall n o, In n (s_live s) -> n = Py o -> exists a x, In (a, x, Py o) (s_refs s) /\ forall k, x <> Attr k) ->
  step (Gc l) s = (s, []).
Proof.
  intros O I F H. unfold step. rewrite O. destruct (cycle s l) eqn:C; [|reflexivity].
  assert (D : forall n, In n (s_live s) -> existsb (fun o => is n (Py o)) l = false).
  { intros n L. apply not_true_is_false. intros Q. apply existsb_exists in Q. destruct Q as (o & Ho & Q). destruct (is_spec n (Py o)) as [E|]; [subst n|discriminate Q].
    destruct (H _ _ L eq_refl) as (a & x & E & NA). unfold cycle in C. rewrite forallb_forall in C. specialize (C o Ho). rewrite forallb_forall in C. specialize (C _ E).
    cbn [dst src lbl fst snd] in C. rewrite is_refl in C. cbn [negb orb] in C. destruct x; try discriminate C. apply (NA k eq_refl). }
  assert (R : forall n, root n = true -> existsb (fun o => is n (Py o)) l = false).
  { intros n L. apply not_true_is_false. intros Q. apply existsb_exists in Q. destruct Q as (o & Ho & Q). destruct (is_spec n (Py o)) as [E|]; [subst n; discriminate L|discriminate Q]. }
  assert (E1 : filter (fun e => negb (existsb (fun o => is (src e) (Py o)) l) && negb (existsb (fun o => is (dst e) (Py o)) l)) (s_refs s) = s_refs s).
  { assert (Z : forall m, (forall e, In e m -> In e (s_refs s)) -> filter (fun e => negb (existsb (fun o => is (src e) (Py o)) l) && negb (existsb (fun o => is (dst e) (Py o)) l)) m = m).
    { induction m as [|((a & x) & b) m IH]; intros K; [reflexivity|]. cbn [filter src dst fst snd]. destruct (I a x b (K _ (or_introl eq_refl))) as (A & B).
      rewrite (D b B). destruct A as [A|A]; [rewrite (R a A)|rewrite (D a A)]; cbn [negb andb]; rewrite IH; auto; intros e He; apply K; right; exact He. }
    apply Z. auto. }
  assert (E2 : filter (fun n => negb (existsb (fun o => is n (Py o)) l)) (s_live s) = s_live s).
  { assert (Z : forall m, (forall n, In n m -> In n (s_live s)) -> filter (fun n => negb (existsb (fun o => is n (Py o)) l)) m = m).
    { induction m as [|n m IH]; intros K; [reflexivity|]. cbn [filter]. rewrite (D n (K n (or_introl eq_refl))). cbn [negb]. rewrite IH; auto. intros x Hx. apply K. right. exact Hx. }
    apply Z. auto. }
  assert (E3 : filter (fun n => existsb (fun o => is n (Py o)) l) (s_live s) = []).
  { assert (Z : forall m, (forall n, In n m -> In n (s_live s)) -> filter (fun n => existsb (fun o => is n (Py o)) l) m = []).
    { induction m as [|n m IH]; intros K; [reflexivity|]. cbn [filter]. rewrite (D n (K n (or_introl eq_refl))). apply IH. intros x Hx. apply K. right. exact Hx. }
    apply Z. auto. }
  cbv zeta. rewrite E1, E2, E3. cbn [map]. replace (live (refs s (s_refs s)) (s_live s)) with s by (destruct s; reflexivity).
  unfold settled. assert (W : forallb (wanted s) (s_live s) = true).
  { apply forallb_forall. intros n L. apply wanted_spec. apply F, L. }
  assert (SE : settle (length (s_live s)) s = s) by (destruct (length (s_live s)); cbn [settle]; [reflexivity|rewrite W; reflexivity]).
  rewrite SE. unfold gone. f_equal. assert (Z : filter (fun n => negb (mem n (s_live s))) (s_live s) = []).
  { assert (Z : forall m, (forall n, In n m -> In n (s_live s)) -> filter (fun n => negb (mem n (s_live s))) m = []).
    { induction m as [|n m IH]; intros K; [reflexivity|]. cbn [filter]. rewrite (proj2 (mem_spec n _) (K n (or_introl eq_refl))). apply IH. intros x Hx. apply K. right. exact Hx. }
    apply Z. auto. }
  rewrite Z. reflexivity.
Qed.
Lemma run_app h1 h2 s : run (h1 ++ h2) s = let (s1, o1) := run h1 s in let (s2, o2) := run h2 s1 in (s2, o1 ++ o2).
Proof.
  revert s. induction h1 as [|a h1 IH]; intros s; cbn [app run]; [destruct (run h2 s); reflexivity|]. destruct (step a s) as (s1 & o1). rewrite IH.
  destruct (run h1 s1) as (s2 & o2). destruct (run h2 s2) as (s3 & o3). rewrite app_assoc. reflexivity.
Qed.
Lemma gc_run h s : (forall l, step (Gc l) s = (s, [])) -> forallb collects h = true -> run h s = (s, []).
Proof.
  intros G. induction h as [|a h IH]; intros H; [reflexivity|]. cbn [forallb] in H. apply andb_true_iff in H. destruct H as (H1 & H). destruct a; try discriminate H1.
  cbn [run]. rewrite G, (IH H). reflexivity.
Qed.
Lemma unreachable s (N : forall a x b, root a = true -> ~ In (a, x, b) (s_refs s)) n : ~ reachable s n.
Proof. induction 1 as [a x b A H|a x b A IH H]; [apply (N a x b A H)|exact IH]. Qed.
Lemma stays h0 t o : (let (s, tr) := run h0 start in s_over s = false /\ (forall a x b, root a = true -> ~ In (a, x, b) (s_refs s)) /\
    (forall n o, In n (s_live s) -> n = Py o -> exists a x, In (a, x, Py o) (s_refs s) /\ forall k, x <> Attr k) /\ In (Cxx t) (s_live s) /\ In (Py o) (s_live s)) ->
  forall h s tr, forallb collects h = true -> run (h0 ++ h) start = (s, tr) ->
  In (OMade (Cxx t)) tr /\ In (OMade (Py o)) tr /\ ~ reachable s (Cxx t) /\ ~ reachable s (Py o) /\ destroyed tr (Cxx t) = 0 /\ destroyed tr (Py o) = 0.
Proof.
  destruct (run h0 start) as (s0 & tr0) eqn:E0. intros (O & N & H & L1 & L2) h s tr C R. destruct (start_good h0 s0 tr0 E0) as (G & F).
  rewrite run_app, E0, (gc_run h s0 (fun l => gc_nothing s0 l O (g_sound _ _ G) F H) C), app_nil_r in R. injection R as <- <-.
  destruct (alive_not_gone s0 tr0 (Cxx t) G I L1). destruct (alive_not_gone s0 tr0 (Py o) G I L2). pose proof (unreachable s0 N). auto 10.
Qed.

(** Nobody can get at the server or its endpoint any more, and they stay for ever: the process goes on to be listed and to answer. *)
Lemma circle_stays : forall h s tr, forallb collects h = true -> run (circle ++ h) start = (s, tr) ->
  In (OMade (Cxx 0)) tr /\ In (OMade (Py 1)) tr /\ ~ reachable s (Cxx 0) /\ ~ reachable s (Py 1) /\ destroyed tr (Cxx 0) = 0 /\ destroyed tr (Py 1) = 0.
Proof.
  apply (stays circle 0 1). vm_compute. split; [reflexivity|]. split.
  - intros a x b A H. repeat (destruct H as [H|H]; [injection H as <- _ _; discriminate A|]). destruct H.
  - split; [|tauto]. intros n o H ->. exists (Cxx 0), (Slot 5).
    repeat destruct H as [H|H]; try discriminate H; try (destruct H; fail); injection H as <-; split; [tauto|discriminate].
Qed.
Lemma circle2_stays : forall h s tr, forallb collects h = true -> run (circle2 ++ h) start = (s, tr) ->
  In (OMade (Cxx 0)) tr /\ In (OMade (Py 0)) tr /\ ~ reachable s (Cxx 0) /\ ~ reachable s (Py 0) /\ destroyed tr (Cxx 0) = 0 /\ destroyed tr (Py 0) = 0.
Proof.
  apply (stays circle2 0 0). vm_compute. split; [reflexivity|]. split.
  - intros a x b A H. repeat (destruct H as [H|H]; [injection H as <- _ _; discriminate A|]). destruct H.
  - split; [|tauto]. intros n o H ->. exists (Cxx 0), (Slot 5).
    repeat destruct H as [H|H]; try discriminate H; try (destruct H; fail); injection H as <-; split; [tauto|discriminate].
Qed.
(** It still answers. *)
Example circle_answers : snd (run (circle ++ [Message 0 5 7]) start) = snd (run circle start) ++ [OHandled 0 5 1].
Proof. vm_compute. reflexivity. Qed.

(** A message on a connection of a manager, for an endpoint written in Python: the process is terminated. *)
Lemma message_dies : snd (run [Connect 5 None; Message 0 5 1] start) = [OMade (Cxx 0); OMade (Py 0); OAdded 0 5 0; ODied].
Proof. vm_compute. reflexivity. Qed.
(** The program holds the transport it got from its endpoint; it is destroyed nevertheless, and the next use of it is undefined. *)
Definition borrows : list op := [Connect 5 None; PeekE 1 0; GetT 2 1; Lose 0].
Lemma borrowed : let (s, tr) := run borrows start in
  var 2 s = Some (Wrap 0) /\ reachable s (Wrap 0) /\ destroyed tr (Cxx 0) = 1 /\ snd (step (Use 2) s) = [OUB] /\ s_over s = false.
Proof.
  vm_compute. split; [reflexivity|]. split; [|auto]. apply (r_root _ (Var 2) Bind); [reflexivity|]. cbn. auto.
Qed.
(** An endpoint whose server is gone. *)
Lemma stale : let tr := snd (run [Serve 0; New 1; Add 0 5 1; Del 0; GetT 2 1] start) in In OUB tr /\ destroyed tr (Cxx 0) = 1.
Proof. vm_compute. auto 10. Qed.

(** A program as it should be: the endpoint is kept by the server alone and answers; a second endpoint takes its name; when the server goes, all
    go, each once. *)
Definition program : list op := [Serve 0; New 1; Add 0 5 1; Del 1; Message 0 5 9; Del 9; New 2; Add 0 5 2; Message 0 5 9; GetT 3 2; Use 3; Del 9; Del 3; Del 2; Del 0].
Example program_runs : forallb (fun a => negb (connects a)) program = true /\
  snd (run program start) =
    [OMade (Cxx 0); OMade (Py 1); OAdded 0 5 1; OHandled 0 5 1; OMade (Py 2); OAdded 0 5 2; OHandled 0 5 2; OUsed 0;
     OGone (Py 2); OGone (Py 1); OGone (Cxx 0); OGone (Wrap 0)].
Proof. vm_compute. auto. Qed.
(** In the middle of it nothing goes round in a circle, and the endpoint no variable refers to can be got at through the server. *)
Example program_middle : let (s, tr) := run (firstn 4 program) start in
  no_circle s /\ reachable s (Py 1) /\ var 1 s = None /\ destroyed tr (Py 1) = 0 /\ serving tr 0 5 = Some 1 /\ s_over s = false.
Proof.
  vm_compute. split.
  - exists (fun n => match n with Var _ | Mgr => 0 | Wrap _ => 1 | Cxx _ => 2 | Py _ => 3 end). intros a x b H.
    repeat (destruct H as [H|H]; [injection H as <- <- <-; auto|]). destruct H.
  - split; [|auto]. apply (r_step _ (Wrap 0) Keep); [|left; reflexivity]. apply (r_root _ (Var 0) Bind); [reflexivity|]. cbn. auto 10.
Qed.
(** A cycle of Python objects alone is taken by the collector. *)
Example gc_takes : snd (run [New 0; New 1; SetAttr 0 7 1; SetAttr 1 7 0; Del 0; Del 1; Gc [0; 1]] start) = [OMade (Py 0); OMade (Py 1); OGone (Py 1); OGone (Py 0)].
Proof. vm_compute. reflexivity. Qed.

(** The process is terminated in the middle of a program. *)
Example end_w : snd (run [Connect 5 None; Message 0 5 1; New 3; Serve 4] start) = [OMade (Cxx 0); OMade (Py 0); OAdded 0 5 0] ++ ODied :: [].
Proof. reflexivity. Qed.
