(** The effect of each access to a ring buffer on what was accepted and returned; used in Rings_proofs. *)
From Coq Require Import List Arith Bool Lia.
Import ListNotations.
From Verif Require Import RingBuffer_model RingBuffer_spec RingBuffer_proofs.

Section Effects.
Context {A : Type}.
Implicit Types (q : st A).

Definition acc q : list A := accepted (trace q).
Definition ret q : list (option A) := returned (trace q).
Definition held_in q : nat := length (acc q) - length (ret q).
Definition unans q : list A := match pp q with PIdle => [] | PChk v _ _ | PWr v _ _ | PSt v _ => [v] end.
Definition last_event q : option (event A) :=
  match cp q with CIdle => match rev (trace q) with e :: _ => Some e | [] => None end | _ => None end.

Lemma push_effect q v q' : step q (APush v) = Some q' -> unans q = [] /\ unans q' = [v] /\ cp q' = cp q /\ acc q' = acc q /\ ret q' = ret q.
Proof.
  cbn [step]. destruct (pp q) eqn:E; try discriminate. intro H. injection H as <-. unfold unans, acc, ret. rewrite E. cbn [emit set_pp pp cp trace].
  rewrite acc_snoc, ret_snoc by exact I. auto.
Qed.

Lemma prod_effect n q rcs c q' : Inv n q rcs -> step q (AProd c) = Some q' ->
  cp q' = cp q /\ ret q' = ret q /\
  ((acc q' = acc q /\ unans q' = unans q) \/
   (exists v, acc q' = acc q /\ unans q = [v] /\ unans q' = [] /\ n - 1 <= length (acc q)) \/
   (exists v, unans q = [v] /\ acc q' = acc q ++ [v] /\ unans q' = [] /\ held_in q < n - 1)).
Proof.
  intros H E. pose proof (i_pos _ _ _ H) as Hn. cbn [step] in E. unfold pstep in E. unfold held_in, unans, acc, ret.
  destruct (pp q) as [|v w next|v w next|v next] eqn:Hp; [discriminate| | |].
  - destruct (readable (pview q) c (rhist q)) eqn:Hr; [|discriminate].
    unfold readable in Hr. apply andb_prop in Hr. destruct Hr as [Hr1 Hr2].
    apply Nat.leb_le in Hr1. apply Nat.ltb_lt in Hr2. rewrite <- (i_rlen _ _ _ H) in Hr2.
    pose proof (i_rhist _ _ _ H c ltac:(lia)) as Hh. rewrite Hh in E.
    pose proof (i_ppc _ _ _ H) as Hpc. rewrite Hp in Hpc. destruct Hpc as [_ Hnext].
    destruct (Nat.eqb_spec next (nth c rcs 0 mod n)) as [Heq|Hne]; injection E as <-; cbn [emit set_pp p_load pp cp trace].
    + rewrite acc_snoc, ret_snoc by exact I. split; [reflexivity|]. split; [reflexivity|]. right. left. exists v.
      split; [reflexivity|]. split; [reflexivity|]. split; [reflexivity|].
      pose proof (i_room _ _ _ H) as Hroom. pose proof (i_rmono _ _ _ H _ _ Hr1 Hr2) as Hmono.
      pose proof (rc_le _ _ _ _ H Hr2) as Hle. pose proof (ret_le_acc _ _ _ H) as HRW.
      rewrite Hnext in Heq. symmetry in Heq. pose proof (mod_lt_sep n _ _ Hn Heq ltac:(lia)). lia.
    + split; [reflexivity|]. split; [reflexivity|]. left. auto.
  - injection E as <-. cbn [emit set_pp p_access pp cp trace]. auto 6.
  - injection E as <-. cbn [emit set_pp p_store pp cp trace]. rewrite ret_snoc by exact I. rewrite accepted_app. cbn [accepted].
    split; [reflexivity|]. split; [reflexivity|]. right. right. exists v. split; [reflexivity|]. split; [reflexivity|]. split; [reflexivity|].
    pose proof (i_ppc _ _ _ H) as Hpc. rewrite Hp in Hpc. destruct Hpc as (_ & Hlt & _).
    pose proof (rc_le _ _ _ _ H (i_pview _ _ _ H)). pose proof (ret_le_acc _ _ _ H). lia.
Qed.

Lemma call_effect q o q' : step q (ACons o) = Some q' -> cp q = CIdle /\ cp q' = CLd o /\ pp q' = pp q /\ acc q' = acc q /\ ret q' = ret q /\ whist q' = whist q.
Proof.
  cbn [step]. destruct (cp q) eqn:E; try discriminate. intro H. injection H as <-. unfold acc, ret. cbn [emit set_cp pp cp trace whist].
  rewrite acc_snoc, ret_snoc by exact I. auto 6.
Qed.

Lemma newest n q rcs c : Inv n q rcs -> S c = length (whist q) -> c = length (acc q).
Proof. intros H E. rewrite (whist_len _ _ _ H) in E. unfold acc. lia. Qed.

Lemma size_effect n q rcs c q' : Inv n q rcs -> cp q = CLd OSize -> step q (AStep c) = Some q' ->
  pp q' = pp q /\ acc q' = acc q /\ ret q' = ret q /\ cp q' = CIdle /\ exists k, last_event q' = Some (ERetSize k) /\ (S c = length (whist q) -> k = held_in q).
Proof.
  intros H Hc E. pose proof (full_room _ _ _ H) as HF. cbn [step] in E. unfold cstep in E. rewrite Hc in E.
  destruct (readable (cview q) c (whist q)) eqn:Hr; [|discriminate].
  destruct (inv_cload _ _ _ _ _ H Hc Hr) as (HI & Hnth & Hi1 & Hi2). rewrite Hnth in E. rewrite (latest_r _ _ _ H), (i_max _ _ _ H) in E.
  injection E as <-. unfold held_in, acc, ret, last_event. cbn [emit set_cp c_load pp cp trace].
  rewrite acc_snoc, ret_snoc by exact I. split; [reflexivity|]. split; [reflexivity|]. split; [reflexivity|]. split; [reflexivity|].
  rewrite rev_app_distr. cbn [rev app]. eexists. split; [reflexivity|]. intro Hw. apply (newest _ _ _ _ H) in Hw. rewrite available_mod by lia. unfold acc, ret in *. lia.
Qed.

Lemma into_load n q rcs mc c q' : Inv n q rcs -> cp q = CLd (OPopInto mc) -> step q (AStep c) = Some q' ->
  pp q' = pp q /\ acc q' = acc q /\ ret q' = ret q /\ last_event q' = None /\
  exists r cnt, cp q' = CInto r cnt 0 [] /\ (S c = length (whist q) -> cnt = Nat.min (held_in q) mc).
Proof.
  intros H Hc E. pose proof (full_room _ _ _ H) as HF. cbn [step] in E. unfold cstep in E. rewrite Hc in E.
  destruct (readable (cview q) c (whist q)) eqn:Hr; [|discriminate].
  destruct (inv_cload _ _ _ _ _ H Hc Hr) as (HI & Hnth & Hi1 & Hi2). rewrite Hnth in E. rewrite (latest_r _ _ _ H), (i_max _ _ _ H) in E.
  injection E as <-. unfold held_in, acc, ret, last_event. cbn [emit set_cp c_load pp cp trace].
  split; [reflexivity|]. split; [reflexivity|]. split; [reflexivity|]. split; [reflexivity|].
  eexists _, _. split; [reflexivity|]. intro Hw. apply (newest _ _ _ _ H) in Hw. rewrite available_mod by lia. unfold acc, ret in *. f_equal. lia.
Qed.

Lemma into_step n q rcs r cnt k out c q' : Inv n q rcs -> cp q = CInto r cnt k out -> step q (AStep c) = Some q' ->
  pp q' = pp q /\ acc q' = acc q /\
  ((ret q' = ret q /\ last_event q' = None /\ exists out', cp q' = CInto r cnt (S k) out') \/
   (exists vs, cp q' = CIdle /\ last_event q' = Some (ERetInto vs) /\ ret q' = ret q ++ vs /\ vs = map Some (firstn cnt (skipn (length (ret q)) (acc q))) /\ cnt <= held_in q)).
Proof.
  intros H Hc E. cbn [step] in E. unfold cstep in E. rewrite Hc in E. pose proof (i_cpc _ _ _ H) as Hpc. rewrite Hc in Hpc.
  destruct Hpc as (Hr & Hk & Hlt & Hout). pose proof (i_cview _ _ _ H) as Hcv. unfold held_in, acc, ret, last_event.
  destruct (Nat.ltb_spec k cnt) as [Hkc|Hkc]; injection E as <-; cbn [emit set_cp c_access c_store pp cp trace].
  - split; [reflexivity|]. split; [reflexivity|]. left. split; [reflexivity|]. split; [reflexivity|]. eexists. reflexivity.
  - rewrite acc_snoc by exact I. split; [reflexivity|]. split; [reflexivity|]. right. assert (k = cnt) by lia. subst k. exists out.
    split; [reflexivity|]. rewrite rev_app_distr. cbn [rev app]. split; [reflexivity|]. rewrite returned_app. cbn [returned]. rewrite app_nil_r.
    split; [reflexivity|]. split; [exact Hout|]. lia.
Qed.

Lemma step_ring n q rcs a q' : Inv n q rcs -> step q a = Some q' -> exists rcs', Inv n q' rcs'.
Proof.
  intros H E. destruct a as [v|c|o|c]; cbn [step] in E.
  - destruct (pp q) eqn:Hp; try discriminate. injection E as <-. exists rcs. now apply inv_push.
  - exists rcs. exact (inv_pstep _ _ _ _ _ H E).
  - destruct (cp q) eqn:Hp; try discriminate. injection E as <-. exists rcs. now apply inv_ccall.
  - destruct (inv_cstep _ _ _ _ _ H E) as [HI|(x & HI & _)]; eauto.
Qed.

Lemma init_effect n q : init n = Some q -> (exists rcs, Inv n q rcs) /\ acc q = [] /\ ret q = [] /\ cp q = CIdle /\ unans q = [].
Proof.
  intros H. split; [eexists; exact (init_inv _ _ H)|]. unfold init in H. destruct (n =? 0); [discriminate|]. injection H as <-. auto.
Qed.
Lemma ring_len n q rcs : Inv n q rcs -> length (ret q) <= length (acc q) /\ length (acc q) < length (ret q) + n.
Proof. intros H. split; [exact (ret_le_acc _ _ _ H)|exact (full_room _ _ _ H)]. Qed.
Lemma ring_vals n q rcs : Inv n q rcs -> ret q = map Some (firstn (length (ret q)) (acc q)).
Proof. intros H. exact (i_vals _ _ _ H). Qed.
End Effects.
