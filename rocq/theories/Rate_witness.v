(** Concrete histories for C116. *)
From Coq Require Import List Arith Bool Lia.
Import ListNotations.
From Verif Require RingBuffer_model.
From Verif Require Import Collector_model Rings_model Rings_spec RingsFresh_spec Rate_spec Rate_proofs Rings_witness.

Definition slowb (i m : nat) (ls : list rlabel) : bool :=
  forallb (fun k => forallb (fun j => let b := firstn j (skipn k ls) in (1 <? sends b) || (length (called i b) <? m)) (seq 0 (S (length ls)))) (seq 0 (S (length ls))).
Lemma slowb_sound i m ls : slowb i m ls = true -> slow i m ls.
Proof.
  intros H a b c E L. unfold slowb in H. rewrite forallb_forall in H. specialize (H (length a)). rewrite in_seq in H.
  assert (X : length a <= length ls /\ length b <= length ls) by (rewrite E, !app_length; lia). specialize (H ltac:(lia)). rewrite forallb_forall in H. specialize (H (length b)). rewrite in_seq in H. specialize (H ltac:(lia)).
  assert (Y : firstn (length b) (skipn (length a) ls) = b). { rewrite E, skipn_app, skipn_all, Nat.sub_diag. cbn [app skipn]. rewrite firstn_app, firstn_all, Nat.sub_diag, firstn_O. apply app_nil_r. }
  cbn zeta in H. rewrite Y in H. apply orb_prop in H as [H|H]; apply Nat.ltb_lt in H; lia.
Qed.

(** A pass that takes [k] events, with the two loads returning index [a]. *)
Definition pass (a k : nat) : list rlabel := [RSwap; RSnapshot] ++ take a a k ++ [RSend].
(** Three places, five events: each is taken before the next but one comes. *)
Definition steady : list rlabel := RStart 7 :: put 0 1 0 ++ pass 1 1 ++ put 0 2 1 ++ pass 2 1 ++ put 0 3 2 ++ pass 3 1 ++ put 0 4 3 ++ pass 4 1 ++ put 0 5 4 ++ [ROrphan 0; RErase 0].
(** The conditions on the loads, computed. *)
Definition load_ok (i : nat) (l : rlabel) (s : rstate) : bool :=
  match l, rs_pc s with
  | RRead c, RCollecting _ ((_, b, _) :: _) _ =>
      if b =? i then match nth_error (rs_threads s) i with
                     | Some t => match RingBuffer_model.cp (r_ring t) with RingBuffer_model.CLd _ => S c =? length (RingBuffer_model.whist (r_ring t)) | _ => true end
                     | None => true end
      else true
  | _, _ => true
  end.
Definition push_ok (i : nat) (l : rlabel) (s : rstate) : bool :=
  match l with
  | RAccess j c =>
      if j =? i then match nth_error (rs_threads s) i with
                     | Some t => match RingBuffer_model.pp (r_ring t) with RingBuffer_model.PChk _ _ _ => S c =? length (RingBuffer_model.rhist (r_ring t)) | _ => true end
                     | None => true end
      else true
  | _ => true
  end.
Fixpoint all_ok (ok : rlabel -> rstate -> bool) (n : nat) (ls : list rlabel) (s : rstate) : bool :=
  match ls with [] => true | l :: ls' => ok l s && match rstep n l s with Some s' => all_ok ok n ls' s' | None => true end end.
Lemma loads_ok n i : forall ls s, all_ok (load_ok i) n ls s = true -> loads_current n i ls s.
Proof.
  induction ls as [|l ls IH]; intros s H; [exact I|]. cbn [all_ok] in H. apply andb_prop in H as [H1 H2]. cbn [loads_current]. split; [|destruct (rstep n l s); [now apply IH|exact I]].
  unfold up_to_date. unfold load_ok in H1. destruct l; try exact I. destruct (rs_pc s) as [| |g [|[[tid b] o] rest] ev|]; try exact I. intros -> t o' Ht Hc. rewrite Nat.eqb_refl, Ht, Hc in H1. now apply Nat.eqb_eq.
Qed.
Lemma pushes_ok n i : forall ls s, all_ok (push_ok i) n ls s = true -> pushes_current n i ls s.
Proof.
  induction ls as [|l ls IH]; intros s H; [exact I|]. cbn [all_ok] in H. apply andb_prop in H as [H1 H2]. cbn [pushes_current]. split; [|destruct (rstep n l s); [now apply IH|exact I]].
  unfold push_up_to_date. unfold push_ok in H1. destruct l; try exact I. intros -> t v w x Ht Hc. rewrite Nat.eqb_refl, Ht, Hc in H1. now apply Nat.eqb_eq.
Qed.
Example steady_slow : slow 0 3 (steady ++ pass 5 1). Proof. apply slowb_sound. vm_compute. reflexivity. Qed.
Example steady_loads : loads_current 4 0 (steady ++ pass 5 1) (rstate0 true). Proof. apply loads_ok. vm_compute. reflexivity. Qed.
Example steady_pushes : pushes_current 4 0 (steady ++ pass 5 1) (rstate0 true). Proof. apply pushes_ok. vm_compute. reflexivity. Qed.
Example steady_run : match rrun 4 steady (rstate0 true) with
  | Some s => ended 0 s /\ rs_pc s = RIdle /\ match rrun 4 (pass 5 1) s with Some s' => sent_of 0 s' = map (fun x => Some (0, x)) [1; 2; 3; 4; 5] | None => False end
  | None => False end.
Proof.
  destruct (rrun 4 steady (rstate0 true)) as [s|] eqn:E; [|vm_compute in E; discriminate]. vm_compute in E. injection E as <-.
  split; [eexists; split; reflexivity|]. split; [reflexivity|]. vm_compute. reflexivity.
Qed.

(** The loads of the thread return the first index again and again: with the buffer empty the fourth event is refused. *)
Definition old_push : list rlabel := RStart 7 :: put 0 1 0 ++ pass 1 1 ++ put 0 2 0 ++ pass 2 1 ++ put 0 3 0 ++ pass 3 1 ++ [RPush 0 4; RAccess 0 0].
Lemma old_push_drops : exists s t, rrun 4 old_push (rstate0 true) = Some s /\ slow 0 3 old_push /\ loads_current 4 0 old_push (rstate0 true) /\ nth_error (rs_threads s) 0 = Some t /\
  unanswered t = [] /\ called 0 old_push = map (pair 0) [1; 2; 3; 4] /\ accepted_of t = map (pair 0) [1; 2; 3] /\ sent_of 0 s = map (fun x => Some (0, x)) [1; 2; 3].
Proof.
  destruct (rrun 4 old_push (rstate0 true)) as [s|] eqn:E; [|vm_compute in E; discriminate]. destruct (nth_error (rs_threads s) 0) as [t|] eqn:Et; [|vm_compute in E; injection E as <-; discriminate].
  exists s, t. split; [reflexivity|]. split; [apply slowb_sound; vm_compute; reflexivity|]. split; [(apply loads_ok || apply pushes_ok); vm_compute; reflexivity|]. vm_compute in E. injection E as <-. vm_compute in Et. injection Et as <-. vm_compute. auto 8.
Qed.
(** The loads of the sender do: it never finds an event, and the fourth is refused. *)
Definition old_take : list rlabel := RStart 7 :: put 0 1 0 ++ pass 0 0 ++ put 0 2 1 ++ pass 0 0 ++ put 0 3 2 ++ pass 0 0 ++ [RPush 0 4; RAccess 0 3].
Lemma old_take_drops : exists s t, rrun 4 old_take (rstate0 true) = Some s /\ slow 0 3 old_take /\ pushes_current 4 0 old_take (rstate0 true) /\ nth_error (rs_threads s) 0 = Some t /\
  unanswered t = [] /\ called 0 old_take = map (pair 0) [1; 2; 3; 4] /\ accepted_of t = map (pair 0) [1; 2; 3] /\ sent_of 0 s = [].
Proof.
  destruct (rrun 4 old_take (rstate0 true)) as [s|] eqn:E; [|vm_compute in E; discriminate]. destruct (nth_error (rs_threads s) 0) as [t|] eqn:Et; [|vm_compute in E; injection E as <-; discriminate].
  exists s, t. split; [reflexivity|]. split; [apply slowb_sound; vm_compute; reflexivity|]. split; [(apply loads_ok || apply pushes_ok); vm_compute; reflexivity|]. vm_compute in E. injection E as <-. vm_compute in Et. injection Et as <-. vm_compute. auto 8.
Qed.
(** As many as the buffer has places are too many: a [push] that is held up through two passes comes on top. *)
Definition held_up : list rlabel := RStart 7 :: [RPush 0 1; RAccess 0 0] ++ pass 0 0 ++ pass 0 0 ++ [RAccess 0 0; RAccess 0 0] ++ put 0 2 2 ++ [RPush 0 3; RAccess 0 2].
Lemma held_up_drops : exists s t, rrun 3 held_up (rstate0 true) = Some s /\ slow 0 3 held_up /\ loads_current 3 0 held_up (rstate0 true) /\ pushes_current 3 0 held_up (rstate0 true) /\
  nth_error (rs_threads s) 0 = Some t /\ unanswered t = [] /\ called 0 held_up = map (pair 0) [1; 2; 3] /\ accepted_of t = map (pair 0) [1; 2].
Proof.
  destruct (rrun 3 held_up (rstate0 true)) as [s|] eqn:E; [|vm_compute in E; discriminate]. destruct (nth_error (rs_threads s) 0) as [t|] eqn:Et; [|vm_compute in E; injection E as <-; discriminate].
  exists s, t. split; [reflexivity|]. split; [apply slowb_sound; vm_compute; reflexivity|]. split; [(apply loads_ok || apply pushes_ok); vm_compute; reflexivity|]. split; [(apply loads_ok || apply pushes_ok); vm_compute; reflexivity|]. vm_compute in E. injection E as <-. vm_compute in Et. injection Et as <-. vm_compute. auto 8.
Qed.
