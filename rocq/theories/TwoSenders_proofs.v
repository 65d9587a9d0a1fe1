(** Proofs about two senders in one process. *)
From Coq Require Import List Arith Bool Lia.
Import ListNotations.
From Verif Require Import TwoSenders_model.

(** No sender takes a step while the other is in the middle of emptying the buffer. *)
Fixpoint in_turn (ls : list twlabel) (s : twstate) : Prop :=
  match ls with
  | [] => True
  | l :: ls' => match l with WPush _ => True | WA => w_b s = WIdle | WB => w_a s = WIdle end /\ in_turn ls' (twstep s l)
  end.

Definition pc_ok (s : twstate) (p : twpc) : Prop :=
  match p with
  | WIdle => True
  | WLoaded r w => r = q_read s /\ r <= w <= length (q_pushed s)
  | WCopied r' out => q_read s <= r' <= length (q_pushed s) /\ out = slice (q_read s) r' (q_pushed s)
  end.

Record tw_inv (s : twstate) : Prop := {
  ti_read : q_read s <= length (q_pushed s);
  ti_log : concat (map snd (w_log s)) = firstn (q_read s) (q_pushed s);
  ti_a : pc_ok s (w_a s);
  ti_b : pc_ok s (w_b s);
  ti_one : w_a s = WIdle \/ w_b s = WIdle;
}.

Lemma slice_app r w l x : w <= length l -> slice r w (l ++ x) = slice r w l.
Proof.
  intros H. unfold slice. destruct (Nat.le_gt_cases r (length l)).
  - rewrite skipn_app, firstn_app, skipn_length. replace (w - r - (length l - r)) with 0 by lia. cbn. now rewrite app_nil_r.
  - replace (w - r) with 0 by lia. reflexivity.
Qed.
Lemma firstn_slice r w l : r <= w -> firstn w l = firstn r l ++ slice r w l.
Proof.
  intros H. unfold slice. revert w l H. induction r as [|r IH]; intros w l H; cbn.
  - now rewrite Nat.sub_0_r.
  - destruct w as [|w]; [lia|]. destruct l as [|y l]; cbn; [now rewrite firstn_nil|]. f_equal. apply IH. lia.
Qed.
Lemma concat_sent who o : concat (map snd (sent who o)) = o.
Proof. destruct o; cbn; auto. now rewrite app_nil_r. Qed.

Lemma step_inv s l : tw_inv s -> match l with WPush _ => True | WA => w_b s = WIdle | WB => w_a s = WIdle end -> tw_inv (twstep s l).
Proof.
  intros [I1 I2 I3 I4 I5] T. destruct l as [x| |]; cbn [twstep].
  - constructor; cbn [q_pushed q_read w_a w_b w_log]; auto.
    + rewrite app_length. cbn. lia.
    + rewrite firstn_app. replace (q_read s - length (q_pushed s)) with 0 by lia. cbn. now rewrite app_nil_r.
    + destruct (w_a s); cbn [pc_ok q_read q_pushed] in *; auto; rewrite app_length; cbn; [lia|]. rewrite slice_app by lia. intuition lia.
    + destruct (w_b s); cbn [pc_ok q_read q_pushed] in *; auto; rewrite app_length; cbn; [lia|]. rewrite slice_app by lia. intuition lia.
  - destruct (w_a s) as [|r w|r' out] eqn:E; cbn [wstep]; constructor; cbn [q_pushed q_read w_a w_b w_log pc_ok sent] in *; rewrite ?app_nil_r, ?T; cbn; auto; try lia.
    + destruct I3 as (-> & H). split; [lia|reflexivity].
    + destruct I3 as (H & ->). rewrite map_app, concat_app, concat_sent, I2. symmetry. apply firstn_slice. lia.
  - destruct (w_b s) as [|r w|r' out] eqn:E; cbn [wstep]; constructor; cbn [q_pushed q_read w_a w_b w_log pc_ok sent] in *; rewrite ?app_nil_r, ?T; cbn; auto; try lia.
    + destruct I4 as (-> & H). split; [lia|reflexivity].
    + destruct I4 as (H & ->). rewrite map_app, concat_app, concat_sent, I2. symmetry. apply firstn_slice. lia.
Qed.

Theorem in_turn_once ls : in_turn ls tw0 -> exists rest, q_pushed (twrun ls tw0) = concat (map snd (w_log (twrun ls tw0))) ++ rest.
Proof.
  intros H. enough (tw_inv (twrun ls tw0)) as I.
  { rewrite (ti_log _ I). exists (skipn (q_read (twrun ls tw0)) (q_pushed (twrun ls tw0))). now rewrite firstn_skipn. }
  assert (tw_inv tw0) as I0 by (constructor; cbn; auto).
  revert H I0. generalize tw0. induction ls as [|l ls IH]; intros s H I; cbn; auto. cbn in H. destruct H as (H1 & H2). apply IH; auto. now apply step_inv.
Qed.

(** Out of turn: the same event in a broadcast of each; an event taken back after [read_index_] was put back; an event sent
    by one of them only, so that the receivers of the other never get it. *)
Theorem sent_twice : exists ls, w_log (twrun ls tw0) = [(true, [7]); (false, [7])] /\ q_pushed (twrun ls tw0) = [7].
Proof. exists [WPush 7; WA; WB; WA; WB; WA; WB]. vm_compute. auto. Qed.
Theorem read_index_back : exists ls, w_log (twrun ls tw0) = [(true, [7]); (true, [8]); (false, [7]); (true, [8])] /\ q_pushed (twrun ls tw0) = [7; 8].
Proof. exists [WPush 7; WB; WB; WA; WA; WA; WPush 8; WA; WA; WA; WB; WA; WA; WA]. vm_compute. auto. Qed.
