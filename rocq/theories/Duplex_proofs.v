From Coq Require Import List Arith Bool Lia.
Import ListNotations.
From Verif Require Import UnixSystem_model UnixSystem_proofs Duplex_model Duplex_spec.

(** ** Streams of whole messages *)
Definition ended (l : list cell) : Prop := l = [] \/ exists l' a, l = l' ++ [Last a].
Lemma ended_nil : ended [].
Proof. now left. Qed.
Lemma ended_cells m : ended (cells m).
Proof. right. exists (repeat More (m_more m)), (m_answer m). reflexivity. Qed.
Lemma cells_ne m : cells m <> [].
Proof. unfold cells. intros H. apply app_eq_nil in H. destruct H as (_ & H). discriminate H. Qed.
Lemma ended_reply a : ended (reply a).
Proof. destruct a; [apply ended_cells|apply ended_nil]. Qed.
Lemma ended_app l1 l2 : ended l2 -> ended l1 \/ l2 <> [] -> ended (l1 ++ l2).
Proof.
  intros [->|(l & a & ->)] H.
  - rewrite app_nil_r. destruct H as [H|H]; [exact H|congruence].
  - right. exists (l1 ++ l), a. now rewrite app_assoc.
Qed.
Lemma ended_tail x l : ended (x :: l) -> ended l.
Proof.
  intros [H|(l' & a & H)]; [discriminate|]. destruct l' as [|y l']; cbn [app] in H.
  - left. congruence.
  - right. exists l', a. congruence.
Qed.
Lemma ended_more l : ended (More :: l) -> l <> [].
Proof.
  intros [H|(l' & a & H)]; [discriminate|]. destruct l' as [|y l']; cbn in H; [discriminate H|]. injection H as _ ->. intros H. apply app_eq_nil in H. destruct H as (_ & H). discriminate H.
Qed.

Definition to (i : nat) (l : list (nat * list cell)) : list cell := concat (map snd (filter (fun e => fst e =? i) l)).
Lemma to_cons i j c l : to i ((j, c) :: l) = if j =? i then c ++ to i l else to i l.
Proof. unfold to. cbn [filter fst]. destruct (j =? i); reflexivity. Qed.

Lemma ended_to i l : Forall (fun e : nat * list cell => ended (snd e)) l -> ended (to i l).
Proof.
  induction l as [|[j c] l IH]; intros H; [apply ended_nil|]. inversion_clear H. rewrite to_cons. destruct (j =? i); [|auto].
  apply IH in H1. destruct (to i l) as [|x r] eqn:E; [rewrite app_nil_r; assumption|]. apply ended_app; [exact H1|right; discriminate].
Qed.

Record CInv (s : duplex) (i : nat) (c : client) : Prop := {
  ci_up : ended (c_up c ++ c_out c);
  ci_upmid : d_mid s = Some i -> c_up c ++ c_out c <> [];
  ci_want : ended (c_want c);
  ci_down : ended (c_down c ++ to i (d_send s));
  ci_downmid : c_mid c = true -> c_down c ++ to i (d_send s) <> [];
}.
Record DInv (s : duplex) : Prop := {
  di_c : forall i c, nth_error (d_clients s) i = Some c -> CInv s i c;
  di_send : Forall (fun e => snd e <> [] /\ ended (snd e) /\ fst e < length (d_clients s)) (d_send s);
  di_mid : forall i, d_mid s = Some i -> i < length (d_clients s);
}.

Lemma nth_set {A} (l : list A) i x y k z : nth_error l i = Some y -> nth_error (set_nth i x l) k = Some z ->
  (k = i /\ z = x) \/ (k <> i /\ nth_error l k = Some z).
Proof.
  intros Hi H. apply set_nth_case in H; [|eapply nth_error_lt; exact Hi]. destruct H as [[-> ->]|[Hn H]]; auto.
Qed.

(** Steps of a client: the server's part is unchanged. *)
Lemma set_inv s i c c' : DInv s -> nth_error (d_clients s) i = Some c -> CInv s i c' -> DInv (set_client i c' s).
Proof.
  intros [H1 H2 H3] Hi Hc. constructor; cbn [set_client d_clients d_send d_mid].
  - intros k z Hk. destruct (nth_set _ _ _ _ _ _ Hi Hk) as [[-> ->]|[_ Hk']]; [|specialize (H1 _ _ Hk')].
    + destruct Hc. constructor; assumption.
    + destruct H1. constructor; assumption.
  - rewrite set_nth_length. exact H2.
  - rewrite set_nth_length. exact H3.
Qed.

Lemma to_seq i m n : to i (map (fun k => (k, cells m)) (seq 0 n)) = if i <? n then cells m else [].
Proof.
  assert (G : forall b, to i (map (fun k => (k, cells m)) (seq b n)) = if (b <=? i) && (i <? b + n) then cells m else []).
  { induction n as [|n IH]; intros b; cbn [seq map].
    - replace (b + 0) with b by lia. destruct (Nat.leb_spec b i), (Nat.ltb_spec i b); cbn; try lia; reflexivity.
    - rewrite to_cons, IH. destruct (Nat.eqb_spec b i) as [->|Hn].
      + replace (S i <=? i) with false by (symmetry; apply Nat.leb_gt; lia). cbn [andb]. rewrite app_nil_r.
        replace (i <=? i) with true by (symmetry; apply Nat.leb_le; lia). replace (i <? i + S n) with true by (symmetry; apply Nat.ltb_lt; lia). reflexivity.
      + destruct (Nat.leb_spec (S b) i), (Nat.leb_spec b i), (Nat.ltb_spec i (S b + n)), (Nat.ltb_spec i (b + S n)); cbn; try lia; reflexivity. }
  rewrite (G 0). reflexivity.
Qed.

Lemma step_inv cap e s s' : DInv s -> d_step cap e s = Some s' -> DInv s'.
Proof.
  intros HI E. pose proof HI as [H1 H2 H3]. destruct e as [i| | |i|i|i|i|i]; cbn [d_step] in E.
  - destruct (d_send s) as [|? ?] eqn:Es; [|discriminate E]. destruct (nth_error (d_clients s) i) as [c|] eqn:Ei; [|discriminate E].
    destruct (match d_mid s with None => true | Some j => i =? j end) eqn:Em; [|discriminate E].
    assert (Hm : d_mid s = None \/ d_mid s = Some i) by (destruct (d_mid s) as [j|]; [apply Nat.eqb_eq in Em; subst j; now right|now left]).
    destruct (c_up c) as [|x up] eqn:Eu; [discriminate E|]. assert (Hc := H1 _ _ Ei). destruct Hc as [A1 A2 A3 A4 A5]. rewrite Eu in A1, A2. cbn [app] in A1, A2.
    assert (Hlen : i < length (d_clients s)) by exact (nth_error_lt _ _ _ Ei).
    rewrite Es in A4, A5.
    destruct x as [|a]; injection E as <-.
    + constructor; cbn [d_clients d_send d_mid].
      * intros k z Hk. destruct (nth_set _ _ _ _ _ _ Ei Hk) as [[-> ->]|[Hn Hk']].
        -- constructor; cbn; auto. { exact (ended_tail _ _ A1). } intros _. exact (ended_more _ A1).
        -- destruct (H1 _ _ Hk') as [B1 B2 B3 B4 B5]. rewrite Es in B4, B5. constructor; cbn; auto. intros X. injection X as ->. congruence.
      * constructor.
      * intros k X. injection X as <-. now rewrite set_nth_length.
    + constructor; cbn [d_clients d_send d_mid].
      * intros k z Hk. destruct (nth_set _ _ _ _ _ _ Ei Hk) as [[-> ->]|[Hn Hk']].
        -- constructor; cbn [c_up c_out c_want c_down c_mid d_send d_mid]; auto.
           ++ exact (ended_tail _ _ A1).
           ++ discriminate.
           ++ destruct a as [n|]; [|exact A4]. rewrite to_cons, Nat.eqb_refl. cbn [to] in *. change (to i []) with (@nil cell). rewrite app_nil_r.
              apply ended_app; [apply ended_reply|right; apply cells_ne].
           ++ intros X. specialize (A5 X). change (to i []) with (@nil cell) in A5. rewrite app_nil_r in A5. intros Y. apply app_eq_nil in Y. destruct Y as (Y & _). contradiction.
        -- destruct (H1 _ _ Hk') as [B1 B2 B3 B4 B5]. rewrite Es in B4, B5.
           assert (Et : to k match a with Some _ => [(i, reply a)] | None => [] end = []).
           { destruct a; [|reflexivity]. rewrite to_cons. destruct (Nat.eqb_spec i k); [congruence|reflexivity]. }
           constructor; cbn [d_send d_mid]; try rewrite Et; auto. discriminate.
      * rewrite set_nth_length. destruct a; [|constructor]. constructor; [|constructor]. cbn [snd fst]. split; [apply cells_ne|]. split; [apply ended_reply|exact Hlen].
      * discriminate.
  - destruct (d_send s) as [|[i [|x rest]] more] eqn:Es; try discriminate E. destruct (nth_error (d_clients s) i) as [c|] eqn:Ei; [|discriminate E].
    destruct (length (c_down c) <? cap) eqn:El; [|discriminate E]. injection E as <-.
    inversion_clear H2 as [|e0 l0 (X1 & X2 & X3) HF]. cbn [snd fst] in X1, X2, X3.
    assert (Ht : forall k, (if i =? k then [x] else []) ++ to k match rest with [] => more | _ => (i, rest) :: more end = to k (d_send s)).
    { intros k. rewrite Es, to_cons. destruct (Nat.eqb_spec i k) as [->|Hn].
      - destruct rest as [|y rest]; [reflexivity|]. rewrite to_cons, Nat.eqb_refl. reflexivity.
      - destruct rest as [|y rest]; [reflexivity|]. rewrite to_cons. destruct (Nat.eqb_spec i k); [congruence|reflexivity]. }
    constructor; cbn [d_clients d_send d_mid].
    + intros k z Hk. destruct (nth_set _ _ _ _ _ _ Ei Hk) as [[-> ->]|[Hn Hk']].
      * specialize (Ht i). rewrite Nat.eqb_refl in Ht. destruct (H1 _ _ Ei) as [B1 B2 B3 B4 B5].
        constructor; cbn [c_up c_out c_want c_down c_mid d_send d_mid]; auto; rewrite <- app_assoc; rewrite Ht; assumption.
      * specialize (Ht k). destruct (Nat.eqb_spec i k) as [?|_]; [congruence|]. cbn [app] in Ht. destruct (H1 _ _ Hk') as [B1 B2 B3 B4 B5].
        constructor; cbn [d_send d_mid]; try rewrite Ht; assumption.
    + rewrite set_nth_length. destruct rest as [|y rest]; [exact HF|]. constructor; [|exact HF]. cbn [snd fst]. split; [discriminate|]. split; [exact (ended_tail _ _ X2)|exact X3].
    + rewrite set_nth_length. exact H3.
  - destruct (d_send s) as [|? ?] eqn:Es; [|discriminate E]. destruct (d_mid s) as [j|] eqn:Em; [discriminate E|]. destruct (d_casts s) as [|m ms] eqn:Ec; [discriminate E|].
    injection E as <-. constructor; cbn [d_clients d_send d_mid].
    + intros k c Hk. destruct (H1 _ _ Hk) as [B1 B2 B3 B4 B5]. rewrite Es in B4, B5. change (to k []) with (@nil cell) in B4, B5. rewrite app_nil_r in B4, B5.
      constructor; cbn [d_send d_mid]; auto; try discriminate; rewrite to_seq; assert (Hl := nth_error_lt _ _ _ Hk); apply Nat.ltb_lt in Hl; rewrite Hl.
      * apply ended_app; [apply ended_cells|right; apply cells_ne].
      * intros _ Y. apply app_eq_nil in Y. destruct Y as (_ & Y). exact (cells_ne _ Y).
    + apply Forall_forall. intros e He. apply in_map_iff in He. destruct He as (k & <- & Hk). apply in_seq in Hk. cbn [fst snd]. split; [apply cells_ne|]. split; [apply ended_cells|lia].
    + discriminate.
  - destruct (nth_error (d_clients s) i) as [c|] eqn:Ei; [|discriminate E]. destruct (worker_free c) eqn:Ew; [|discriminate E].
    destruct (c_down c) as [|x down] eqn:Ed; [discriminate E|]. destruct (H1 _ _ Ei) as [B1 B2 B3 B4 B5]. rewrite Ed in B4, B5. cbn [app] in B4, B5.
    destruct x as [|a]; injection E as <-; apply (set_inv _ _ c); auto; constructor; cbn [c_up c_out c_want c_down c_mid]; auto.
    + apply ended_nil.
    + exact (ended_tail _ _ B4).
    + intros _. exact (ended_more _ B4).
    + apply ended_reply.
    + exact (ended_tail _ _ B4).
    + discriminate.
  - destruct (nth_error (d_clients s) i) as [c|] eqn:Ei; [|discriminate E]. destruct (c_out c) as [|x out] eqn:Eo; [discriminate E|].
    destruct (length (c_up c) <? cap); [|discriminate E]. injection E as <-. destruct (H1 _ _ Ei) as [B1 B2 B3 B4 B5]. rewrite Eo in B1, B2.
    apply (set_inv _ _ c); auto; constructor; cbn [c_up c_out c_want c_down c_mid]; auto; rewrite <- app_assoc; assumption.
  - destruct (nth_error (d_clients s) i) as [c|] eqn:Ei; [|discriminate E]. destruct (c_out c) as [|? ?] eqn:Eo; [|discriminate E].
    destruct (c_want c) as [|x w] eqn:Ew; [discriminate E|]. injection E as <-. destruct (H1 _ _ Ei) as [B1 B2 B3 B4 B5]. rewrite Ew in B3.
    apply (set_inv _ _ c); auto; constructor; cbn [c_up c_out c_want c_down c_mid]; auto.
    + apply ended_app; [exact B3|right; discriminate].
    + intros _ Y. apply app_eq_nil in Y. destruct Y as (_ & Y). discriminate Y.
    + apply ended_nil.
  - destruct (nth_error (d_clients s) i) as [c|] eqn:Ei; [|discriminate E]. destruct (c_out c) as [|? ?] eqn:Eo; [|discriminate E].
    destruct (c_requests c) as [|m ms] eqn:Er; [discriminate E|]. injection E as <-. destruct (H1 _ _ Ei) as [B1 B2 B3 B4 B5].
    apply (set_inv _ _ c); auto; constructor; cbn [c_up c_out c_want c_down c_mid]; auto.
    + apply ended_app; [apply ended_cells|right; apply cells_ne].
    + intros _ Y. apply app_eq_nil in Y. destruct Y as (_ & Y). exact (cells_ne _ Y).
  - destruct (nth_error (d_clients s) i) as [c|] eqn:Ei; [|discriminate E]. destruct (worker_free c && negb (c_mid c)); [|discriminate E].
    destruct (c_casts c) as [|m ms] eqn:Er; [discriminate E|]. injection E as <-. destruct (H1 _ _ Ei) as [B1 B2 B3 B4 B5].
    apply (set_inv _ _ c); auto; constructor; cbn [c_up c_out c_want c_down c_mid]; auto. apply ended_cells.
Qed.

Lemma duplex0_inv cl casts : DInv (duplex0 cl casts).
Proof.
  constructor; cbn [duplex0 d_clients d_send d_mid]; [|constructor|discriminate].
  intros i c H. rewrite nth_error_map in H. destruct (nth_error cl i) as [p|]; [|discriminate H]. injection H as <-.
  constructor; cbn; try apply ended_nil; discriminate.
Qed.
Lemma run_inv cap es : forall s s', DInv s -> d_run cap es s = Some s' -> DInv s'.
Proof.
  induction es as [|e es IH]; intros s s' HI E; cbn [d_run] in E; [congruence|].
  destruct (d_step cap e s) as [s1|] eqn:E1; [|discriminate E]. exact (IH _ _ (step_inv _ _ _ _ HI E1) E).
Qed.

(** ** Who waits for whom *)
Lemma lt_cap n cap : (n <? cap) = false -> cap <= n.
Proof. apply Nat.ltb_ge. Qed.

Theorem stuck_cases cap s : 0 < cap -> DInv s -> stuck cap s -> finished s \/ ring cap s.
Proof.
  intros Hcap [H1 H2 H3] HS.
  (* a client that is sending is blocked by a full connection *)
  assert (OUT : forall i c, nth_error (d_clients s) i = Some c -> c_out c <> [] -> cap <= length (c_up c)).
  { intros i c Hi Ho. specialize (HS (CliSend i)). cbn [d_step] in HS. rewrite Hi in HS. destruct (c_out c) as [|x out]; [congruence|].
    destruct (length (c_up c) <? cap) eqn:El; [discriminate HS|]. now apply lt_cap. }
  destruct (d_send s) as [|[i rest] more] eqn:Es.
  - left. destruct (d_mid s) as [i|] eqn:Em.
    + (* in the middle of a message of client i *)
      exfalso. destruct (nth_error (d_clients s) i) as [c|] eqn:Ei; [|apply nth_error_None in Ei; specialize (H3 i eq_refl); lia].
      assert (Hup : c_up c = []).
      { specialize (HS (SrvRead i)). cbn [d_step] in HS. rewrite Es, Ei, Em, Nat.eqb_refl in HS. destruct (c_up c) as [|[|a] up]; [reflexivity|discriminate HS|discriminate HS]. }
      assert (X := ci_upmid _ _ _ (H1 _ _ Ei) Em). rewrite Hup in X. cbn [app] in X. specialize (OUT _ _ Ei X). rewrite Hup in OUT. cbn in OUT. lia.
    + assert (Hc : d_casts s = []).
      { specialize (HS SrvCast). cbn [d_step] in HS. rewrite Es, Em in HS. destruct (d_casts s); [reflexivity|discriminate HS]. }
      split; [|now repeat split]. apply Forall_forall. intros c Hin. apply In_nth_error in Hin. destruct Hin as (i & Hi).
      assert (Hup : c_up c = []).
      { specialize (HS (SrvRead i)). cbn [d_step] in HS. rewrite Es, Hi, Em in HS. destruct (c_up c) as [|[|a] up]; [reflexivity|discriminate HS|discriminate HS]. }
      assert (Hout : c_out c = []).
      { destruct (c_out c) as [|x out] eqn:Eo; [reflexivity|]. assert (X : c_out c <> []) by congruence. specialize (OUT _ _ Hi X). rewrite Hup in OUT. cbn in OUT. lia. }
      assert (Hw : c_want c = []).
      { specialize (HS (CliLock i)). cbn [d_step] in HS. rewrite Hi, Hout in HS. destruct (c_want c); [reflexivity|discriminate HS]. }
      assert (Hr : c_requests c = []).
      { specialize (HS (CliRequest i)). cbn [d_step] in HS. rewrite Hi, Hout in HS. destruct (c_requests c); [reflexivity|discriminate HS]. }
      assert (Hf : worker_free c = true) by (unfold worker_free; rewrite Hw, Hout; reflexivity).
      assert (Hd : c_down c = []).
      { specialize (HS (CliRead i)). cbn [d_step] in HS. rewrite Hi, Hf in HS. destruct (c_down c) as [|[|a] down]; [reflexivity|discriminate HS|discriminate HS]. }
      assert (Hm : c_mid c = false).
      { destruct (c_mid c) eqn:E; [|reflexivity]. destruct (ci_downmid _ _ _ (H1 _ _ Hi) E). rewrite Hd, Es. reflexivity. }
      assert (Hca : c_casts c = []).
      { specialize (HS (CliCast i)). cbn [d_step] in HS. rewrite Hi, Hf, Hm in HS. cbn [andb negb] in HS. destruct (c_casts c); [reflexivity|discriminate HS]. }
      unfold idle_client. auto 10.
  - right. inversion_clear H2 as [|e0 l0 (X1 & X2 & X3) HF]. cbn [snd fst] in X1, X2, X3.
    destruct (nth_error (d_clients s) i) as [c|] eqn:Ei; [|apply nth_error_None in Ei; lia].
    exists i, rest, more, c. split; [exact Es|]. split; [exact X1|]. split; [exact Ei|].
    assert (Hd : cap <= length (c_down c)).
    { specialize (HS SrvSend). cbn [d_step] in HS. rewrite Es in HS. destruct rest as [|y rest]; [congruence|]. rewrite Ei in HS.
      destruct (length (c_down c) <? cap) eqn:El; [discriminate HS|]. now apply lt_cap. }
    assert (Hf : worker_free c = false).
    { specialize (HS (CliRead i)). cbn [d_step] in HS. rewrite Ei in HS. destruct (worker_free c); [|reflexivity].
      destruct (c_down c) as [|[|a] down]; [cbn in Hd; lia|discriminate HS|discriminate HS]. }
    assert (Ho : c_out c <> []).
    { intros Ho. unfold worker_free in Hf. rewrite Ho in Hf. destruct (c_want c) as [|x w] eqn:Ew; [discriminate Hf|].
      specialize (HS (CliLock i)). cbn [d_step] in HS. rewrite Ei, Ho, Ew in HS. discriminate HS. }
    split; [exact (OUT _ _ Ei Ho)|]. split; [exact Hd|]. split; [|exact Ho].
    unfold worker_sends. unfold worker_free in Hf. destruct (c_want c) as [|x w]; [|left; discriminate]. right. split; [exact Ho|].
    destruct (c_out c) as [|y o]; [congruence|]. destruct (c_worker c); [reflexivity|discriminate Hf].
Qed.

(** ** The steps, seen from the outside *)
Definition csum (f : cell -> nat) (l : list cell) : nat := list_sum (map f l).
Lemma csum_app f l1 l2 : csum f (l1 ++ l2) = csum f l1 + csum f l2.
Proof. unfold csum. rewrite map_app, list_sum_app. reflexivity. Qed.
Lemma csum_cons f x l : csum f (x :: l) = f x + csum f l.
Proof. reflexivity. Qed.
Lemma csum_nil f : csum f [] = 0.
Proof. reflexivity. Qed.
Lemma csum_cells f m : csum f (cells m) = m_more m * f More + f (Last (m_answer m)).
Proof.
  unfold cells. rewrite csum_app, csum_cons, csum_nil, Nat.add_0_r. f_equal.
  induction (m_more m) as [|n IH]; [reflexivity|]. cbn [repeat]. rewrite csum_cons, IH. reflexivity.
Qed.
Lemma lsum_cons {A} (f : A -> nat) x l : list_sum (map f (x :: l)) = f x + list_sum (map f l).
Proof. reflexivity. Qed.
Lemma to_csum f i l : csum f (to i l) = list_sum (map (fun e : nat * list cell => if fst e =? i then csum f (snd e) else 0) l).
Proof.
  induction l as [|[j c] l IH]; [reflexivity|]. rewrite to_cons. cbn [map list_sum fold_right fst snd]. destruct (j =? i); [rewrite csum_app|]; rewrite IH; reflexivity.
Qed.

Inductive inside (cap : nat) : client -> client -> Prop :=
  | In_read c x down : worker_free c = true -> c_down c = x :: down ->
      inside cap c {| c_up := c_up c; c_down := down; c_requests := c_requests c; c_casts := c_casts c; c_out := c_out c; c_worker := c_worker c;
               c_want := match x with Last a => reply a | More => [] end; c_mid := match x with More => true | _ => false end; c_upgot := c_upgot c;
               c_downgot := match x with More => c_downgot c | Last _ => S (c_downgot c) end |}
  | In_send c x out : c_out c = x :: out -> length (c_up c) < cap ->
      inside cap c {| c_up := c_up c ++ [x]; c_down := c_down c; c_requests := c_requests c; c_casts := c_casts c; c_out := out; c_worker := c_worker c;
               c_want := c_want c; c_mid := c_mid c; c_upgot := c_upgot c; c_downgot := c_downgot c |}
  | In_lock c : c_out c = [] -> c_want c <> [] ->
      inside cap c {| c_up := c_up c; c_down := c_down c; c_requests := c_requests c; c_casts := c_casts c; c_out := c_want c; c_worker := true;
               c_want := []; c_mid := c_mid c; c_upgot := c_upgot c; c_downgot := c_downgot c |}
  | In_request c m ms : c_out c = [] -> c_requests c = m :: ms ->
      inside cap c {| c_up := c_up c; c_down := c_down c; c_requests := ms; c_casts := c_casts c; c_out := cells m; c_worker := false;
               c_want := c_want c; c_mid := c_mid c; c_upgot := c_upgot c; c_downgot := c_downgot c |}
  | In_cast c m ms : worker_free c = true -> c_casts c = m :: ms ->
      inside cap c {| c_up := c_up c; c_down := c_down c; c_requests := c_requests c; c_casts := ms; c_out := c_out c; c_worker := c_worker c;
               c_want := cells m; c_mid := c_mid c; c_upgot := c_upgot c; c_downgot := c_downgot c |}.

Inductive moved (cap : nat) (s : duplex) : dstep -> duplex -> Prop :=
  | Mv_client e i c c' : nth_error (d_clients s) i = Some c -> inside cap c c' -> moved cap s e (set_client i c' s)
  | Mv_read i c x up got : nth_error (d_clients s) i = Some c -> d_send s = [] -> c_up c = x :: up -> got = match x with More => c_upgot c | Last _ => S (c_upgot c) end ->
      moved cap s (SrvRead i) {| d_clients := set_nth i {| c_up := up; c_down := c_down c; c_requests := c_requests c; c_casts := c_casts c; c_out := c_out c; c_worker := c_worker c;
                                 c_want := c_want c; c_mid := c_mid c; c_upgot := got; c_downgot := c_downgot c |} (d_clients s);
        d_send := match x with Last (Some k) => [(i, reply (Some k))] | _ => [] end; d_mid := match x with More => Some i | _ => None end; d_casts := d_casts s |}
  | Mv_send i c x rest more : nth_error (d_clients s) i = Some c -> d_send s = (i, x :: rest) :: more -> length (c_down c) < cap ->
      moved cap s SrvSend {| d_clients := set_nth i {| c_up := c_up c; c_down := c_down c ++ [x]; c_requests := c_requests c; c_casts := c_casts c; c_out := c_out c; c_worker := c_worker c;
                             c_want := c_want c; c_mid := c_mid c; c_upgot := c_upgot c; c_downgot := c_downgot c |} (d_clients s);
        d_send := match rest with [] => more | _ => (i, rest) :: more end; d_mid := d_mid s; d_casts := d_casts s |}
  | Mv_cast m ms : d_send s = [] -> d_casts s = m :: ms ->
      moved cap s SrvCast {| d_clients := d_clients s; d_send := map (fun i => (i, cells m)) (seq 0 (length (d_clients s))); d_mid := None; d_casts := ms |}.

Lemma step_moved cap e s s' : d_step cap e s = Some s' -> moved cap s e s'.
Proof.
  intros E. destruct e as [i| | |i|i|i|i|i]; cbn [d_step] in E.
  - destruct (d_send s) as [|? ?] eqn:Es; [|discriminate E]. destruct (nth_error (d_clients s) i) as [c|] eqn:Ei; [|discriminate E].
    destruct (match d_mid s with None => true | Some j => i =? j end) eqn:Em; [|discriminate E].
    destruct (c_up c) as [|x up] eqn:Eu; [discriminate E|].
    assert (G := Mv_read cap s i c x up _ Ei Es Eu eq_refl). destruct x as [|[k|]]; injection E as <-; exact G.
  - destruct (d_send s) as [|[i [|x rest]] more] eqn:Es; try discriminate E. destruct (nth_error (d_clients s) i) as [c|] eqn:Ei; [|discriminate E].
    destruct (length (c_down c) <? cap) eqn:El; [|discriminate E]. apply Nat.ltb_lt in El. injection E as <-. exact (Mv_send cap s i c x rest more Ei Es El).
  - destruct (d_send s) as [|? ?] eqn:Es; [|discriminate E]. destruct (d_mid s) as [j|] eqn:Em; [discriminate E|]. destruct (d_casts s) as [|m ms] eqn:Ec; [discriminate E|].
    injection E as <-. exact (Mv_cast cap s m ms Es Ec).
  - destruct (nth_error (d_clients s) i) as [c|] eqn:Ei; [|discriminate E]. destruct (worker_free c) eqn:Ew; [|discriminate E].
    destruct (c_down c) as [|x down] eqn:Ed; [discriminate E|]. assert (G := Mv_client cap s (CliRead i) i c _ Ei (In_read cap c x down Ew Ed)).
    destruct x as [|a]; injection E as <-; exact G.
  - destruct (nth_error (d_clients s) i) as [c|] eqn:Ei; [|discriminate E]. destruct (c_out c) as [|x out] eqn:Eo; [discriminate E|].
    destruct (length (c_up c) <? cap) eqn:El; [|discriminate E]. apply Nat.ltb_lt in El. injection E as <-. exact (Mv_client cap s _ i c _ Ei (In_send cap c x out Eo El)).
  - destruct (nth_error (d_clients s) i) as [c|] eqn:Ei; [|discriminate E]. destruct (c_out c) as [|? ?] eqn:Eo; [|discriminate E].
    destruct (c_want c) as [|x w] eqn:Ew; [discriminate E|]. injection E as <-. rewrite <- Ew. apply (Mv_client cap s _ i c _ Ei). apply In_lock; [exact Eo|congruence].
  - destruct (nth_error (d_clients s) i) as [c|] eqn:Ei; [|discriminate E]. destruct (c_out c) as [|? ?] eqn:Eo; [|discriminate E].
    destruct (c_requests c) as [|m ms] eqn:Er; [discriminate E|]. injection E as <-. exact (Mv_client cap s _ i c _ Ei (In_request cap c m ms Eo Er)).
  - destruct (nth_error (d_clients s) i) as [c|] eqn:Ei; [|discriminate E]. destruct (worker_free c) eqn:Ew; [|discriminate E]. destruct (negb (c_mid c)); [|discriminate E]. cbn [andb] in E.
    destruct (c_casts c) as [|m ms] eqn:Er; [discriminate E|]. injection E as <-. exact (Mv_client cap s _ i c _ Ei (In_cast cap c m ms Ew Er)).
Qed.

Lemma free_want c : worker_free c = true -> c_want c = [].
Proof. unfold worker_free. destruct (c_want c); [reflexivity|discriminate]. Qed.

(** ** Every run ends *)
Definition ex (x : cell) : nat := match x with Last (Some k) => 1 + 2 * S k | _ => 0 end.
Definition w1 (x : cell) : nat := 1 + ex x.
Definition w2 (x : cell) : nat := 2 + ex x.
Definition cwork (c : client) : nat :=
  csum w1 (c_up c) + csum w2 (c_out c) + (csum w2 (c_want c) + match c_want c with [] => 0 | _ => 1 end) + list_sum (map (fun m => 1 + csum w2 (cells m)) (c_requests c)) +
  list_sum (map (fun m => 2 + csum w2 (cells m)) (c_casts c)) + csum w1 (c_down c).
Definition swork (n : nat) (send : list (nat * list cell)) (casts : list message) : nat :=
  list_sum (map (fun e => csum w2 (snd e)) send) + list_sum (map (fun m => 1 + n * csum w2 (cells m)) casts).
Definition work (s : duplex) : nat := list_sum (map cwork (d_clients s)) + swork (length (d_clients s)) (d_send s) (d_casts s).

Lemma sum_set {A} (f : A -> nat) l : forall i x y, nth_error l i = Some y -> list_sum (map f (set_nth i x l)) + f y = list_sum (map f l) + f x.
Proof.
  induction l as [|z l IH]; intros [|i] x y H; try discriminate H; cbn [nth_error set_nth map list_sum fold_right] in *.
  - injection H as ->. lia.
  - specialize (IH i x y H). unfold list_sum in IH. lia.
Qed.
Lemma w2_w1 x : w2 x = S (w1 x).
Proof. reflexivity. Qed.
Lemma reply_work k : csum w2 (reply (Some k)) = 2 * S k.
Proof. cbn [reply]. rewrite csum_cells. unfold w2. cbn [m_more m_answer ex]. lia. Qed.

Lemma inside_work cap c c' : inside cap c c' -> cwork c' < cwork c.
Proof.
  destruct 1 as [c x down Hf Hd|c x out Ho Hl|c Ho Hw|c m ms Ho Hr|c m ms Hf Hc]; unfold cwork; cbn [c_up c_down c_requests c_casts c_out c_want].
  - rewrite (free_want _ Hf), Hd, csum_cons. destruct x as [|[k|]]; [change (w1 More) with 1|change (w1 (Last (Some k))) with (2 + 2 * S k)|change (w1 (Last None)) with 1].
    + rewrite csum_nil. lia.
    + rewrite reply_work, csum_nil. destruct (reply (Some k)) as [|y r]; lia.
    + cbn [reply]. rewrite csum_nil. lia.
  - rewrite Ho, csum_app, !csum_cons, csum_nil, w2_w1. lia.
  - rewrite Ho, !csum_nil. destruct (c_want c) as [|x w]; [congruence|]. lia.
  - rewrite Ho, Hr, csum_nil, lsum_cons. lia.
  - rewrite (free_want _ Hf), Hc, csum_nil, lsum_cons. destruct (cells m); lia.
Qed.

Lemma step_work cap e s s' : d_step cap e s = Some s' -> work s' < work s.
Proof.
  intros E. apply step_moved in E. destruct E as [e i c c' Hi Hin|i c x up got Hi Hs Hu Hg|i c x rest more Hi Hs Hl|m ms Hs Hc];
    unfold work; cbn [set_client d_clients d_send d_casts]; rewrite ?set_nth_length.
  - assert (H := sum_set cwork _ _ c' _ Hi). apply inside_work in Hin. lia.
  - set (c' := Build_client _ _ _ _ _ _ _ _ _ _). assert (H := sum_set cwork _ _ c' _ Hi).
    assert (X : cwork c' + w1 x = cwork c) by (unfold cwork, c'; cbn [c_up c_down c_requests c_casts c_out c_want]; rewrite Hu, csum_cons; lia).
    assert (Y : list_sum (map (fun e : nat * list cell => csum w2 (snd e)) match x with Last (Some k) => [(i, reply (Some k))] | _ => [] end) < w1 x).
    { destruct x as [|[k|]]; cbn [map list_sum fold_right snd]; [unfold w1; lia|rewrite reply_work; unfold w1; cbn [ex]; lia|unfold w1; lia]. }
    rewrite Hs. unfold swork. change (list_sum (map (fun e : nat * list cell => csum w2 (snd e)) [])) with 0. lia.
  - set (c' := Build_client _ _ _ _ _ _ _ _ _ _). assert (H := sum_set cwork _ _ c' _ Hi).
    assert (X : cwork c' = cwork c + w1 x).
    { unfold cwork, c'. cbn [c_up c_down c_requests c_casts c_out c_want]. rewrite csum_app, csum_cons, csum_nil. lia. }
    rewrite Hs. unfold swork. rewrite lsum_cons. cbn [snd]. rewrite csum_cons, w2_w1. destruct rest as [|y rest]; [|rewrite lsum_cons; cbn [snd]]; lia.
  - rewrite Hs, Hc. unfold swork. rewrite lsum_cons.
    assert (X : forall b n, list_sum (map (fun e : nat * list cell => csum w2 (snd e)) (map (fun i => (i, cells m)) (seq b n))) = n * csum w2 (cells m)).
    { intros b n. revert b. induction n as [|n IH]; intros b; [reflexivity|]. cbn [seq map list_sum fold_right snd]. specialize (IH (S b)). unfold list_sum in IH. rewrite IH. lia. }
    rewrite X. change (list_sum (map (fun e : nat * list cell => csum w2 (snd e)) [])) with 0. lia.
Qed.

Theorem runs_end cap es : forall s s', d_run cap es s = Some s' -> length es + work s' <= work s.
Proof.
  induction es as [|e es IH]; intros s s' E; cbn [d_run length] in *; [injection E as <-; lia|].
  destruct (d_step cap e s) as [s1|] eqn:E1; [|discriminate E]. apply step_work in E1. specialize (IH _ _ E). lia.
Qed.

(** ** What is still to come, per client *)
Definition is_last (x : cell) : nat := match x with Last _ => 1 | More => 0 end.
Definition is_ask (x : cell) : nat := match x with Last (Some _) => 1 | _ => 0 end.
Definition one (x : cell) : nat := 1.
Definition ask_size (x : cell) : nat := match x with Last (Some k) => S k | _ => 0 end.
Definition reply_of (x : cell) : list cell := match x with Last a => reply a | More => [] end.

Section Pot.
Variable R : nat -> nat -> Prop.
Hypothesis Rrefl : forall a, R a a.
Hypothesis Rtrans : forall a b c, R a b -> R b c -> R a c.
Hypothesis Radd : forall a b c, R a b -> R (a + c) (b + c).
Variables f g : cell -> nat.
Variables b1 b2 : nat.
Hypothesis Hf : forall x, R (csum g (reply_of x) + b1 * is_last x) (f x).
Hypothesis Hg : forall x, R (csum f (reply_of x) + b2 * is_last x) (g x).

Definition cpot (c : client) : nat :=
  csum f (c_up c) + csum f (c_out c) + csum f (c_want c) + list_sum (map (fun m => csum f (cells m)) (c_requests c)) + list_sum (map (fun m => csum f (cells m)) (c_casts c)) +
  csum g (c_down c) + b1 * c_upgot c + b2 * c_downgot c.
Definition spot (i : nat) (s : duplex) : nat := csum g (to i (d_send s)) + list_sum (map (fun m => csum g (cells m)) (d_casts s)).

Lemma inside_pot cap c c' : inside cap c c' -> R (cpot c') (cpot c).
Proof.
  destruct 1 as [c x down Hfr Hd|c x out Ho Hl|c Ho Hw|c m ms Ho Hr|c m ms Hfr Hc]; unfold cpot; cbn [c_up c_down c_requests c_casts c_out c_want c_upgot c_downgot].
  - rewrite (free_want _ Hfr), Hd, csum_cons, csum_nil. specialize (Hg x).
    set (A := csum f (c_up c)). set (B := csum f (c_out c)). set (C := list_sum (map _ (c_requests c))). set (D := list_sum (map _ (c_casts c))). set (G := csum g down).
    apply Radd with (c := A + B + C + D + G + b1 * c_upgot c + b2 * c_downgot c) in Hg.
    match type of Hg with R ?u ?v => match goal with |- R ?p ?q => replace p with u; [replace q with v by lia; exact Hg|] end end.
    destruct x as [|a]; cbn [reply_of is_last]; [rewrite csum_nil|]; lia.
  - rewrite Ho, csum_app, !csum_cons, csum_nil. match goal with |- R ?p ?q => replace p with q by lia; apply Rrefl end.
  - rewrite Ho, !csum_nil. match goal with |- R ?p ?q => replace p with q by lia; apply Rrefl end.
  - rewrite Ho, Hr, csum_nil, lsum_cons. match goal with |- R ?p ?q => replace p with q by lia; apply Rrefl end.
  - rewrite (free_want _ Hfr), Hc, csum_nil, lsum_cons. match goal with |- R ?p ?q => replace p with q by lia; apply Rrefl end.
Qed.

Lemma step_pot cap e s s' i c : d_step cap e s = Some s' -> nth_error (d_clients s) i = Some c ->
  exists c', nth_error (d_clients s') i = Some c' /\ R (cpot c' + spot i s') (cpot c + spot i s).
Proof.
  intros E Hk. apply step_moved in E. destruct E as [e j d d' Hi Hin|j d x up got Hi Hs Hu Hgo|j d x rest more Hi Hs Hl|m ms Hs Hc]; cbn [set_client d_clients].
  - destruct (Nat.eq_dec i j) as [->|Hn].
    + exists d'. rewrite set_nth_same by (eapply nth_error_lt; exact Hi). split; [reflexivity|]. assert (d = c) by congruence. subst d. apply inside_pot in Hin. apply Radd. exact Hin.
    + exists c. rewrite set_nth_other by assumption. split; [exact Hk|]. apply Rrefl.
  - destruct (Nat.eq_dec i j) as [->|Hn].
    + eexists. rewrite set_nth_same by (eapply nth_error_lt; exact Hi). split; [reflexivity|]. assert (d = c) by congruence. subst d.
      unfold cpot, spot. cbn [c_up c_down c_requests c_casts c_out c_want c_upgot c_downgot d_send d_casts]. rewrite Hu, Hs, csum_cons. change (to j []) with (@nil cell). rewrite csum_nil.
      specialize (Hf x). assert (Et : csum g (to j match x with Last (Some k) => [(j, reply (Some k))] | _ => [] end) = csum g (reply_of x)).
      { destruct x as [|[k|]]; try reflexivity. rewrite to_cons, Nat.eqb_refl. change (to j []) with (@nil cell). rewrite app_nil_r. reflexivity. }
      rewrite Et. set (A := csum f up). set (B := csum f (c_out c)). set (B' := csum f (c_want c)). set (C := list_sum (map _ (c_requests c))). set (D := list_sum (map _ (c_casts c))). set (G := csum g (c_down c)).
      set (K := list_sum (map _ (d_casts s))).
      apply Radd with (c := A + B + B' + C + D + G + K + b1 * c_upgot c + b2 * c_downgot c) in Hf.
      match type of Hf with R ?u ?v => match goal with |- R ?p ?q => replace p with u; [replace q with v by lia; exact Hf|] end end.
      subst got. destruct x as [|a]; cbn [is_last]; lia.
    + exists c. rewrite set_nth_other by assumption. split; [exact Hk|]. unfold spot. cbn [d_send d_casts]. rewrite Hs.
      assert (Et : to i match x with Last (Some k) => [(j, reply (Some k))] | _ => [] end = []).
      { destruct x as [|[k|]]; try reflexivity. rewrite to_cons. destruct (Nat.eqb_spec j i); [congruence|reflexivity]. }
      rewrite Et. apply Rrefl.
  - assert (Ht : forall k, (if j =? k then [x] else []) ++ to k match rest with [] => more | _ => (j, rest) :: more end = to k (d_send s)).
    { intros k. rewrite Hs, to_cons. destruct (Nat.eqb_spec j k) as [->|Hn].
      - destruct rest as [|y rest]; [reflexivity|]. rewrite to_cons, Nat.eqb_refl. reflexivity.
      - destruct rest as [|y rest]; [reflexivity|]. rewrite to_cons. destruct (Nat.eqb_spec j k); [congruence|reflexivity]. }
    specialize (Ht i). destruct (Nat.eq_dec i j) as [->|Hn].
    + eexists. rewrite set_nth_same by (eapply nth_error_lt; exact Hi). split; [reflexivity|]. assert (d = c) by congruence. subst d. rewrite Nat.eqb_refl in Ht.
      unfold cpot, spot. cbn [c_up c_down c_requests c_casts c_out c_want c_upgot c_downgot d_send d_casts]. rewrite <- Ht, !csum_app, !csum_cons, csum_nil.
      match goal with |- R ?p ?q => replace p with q by lia; apply Rrefl end.
    + exists c. rewrite set_nth_other by assumption. split; [exact Hk|]. destruct (Nat.eqb_spec j i) as [?|_]; [congruence|]. cbn [app] in Ht. unfold spot. cbn [d_send d_casts]. rewrite Ht. apply Rrefl.
  - exists c. split; [exact Hk|]. unfold spot. cbn [d_send d_casts]. rewrite Hs, Hc, to_seq, lsum_cons. assert (Hl := nth_error_lt _ _ _ Hk). apply Nat.ltb_lt in Hl. rewrite Hl.
    change (to i []) with (@nil cell). rewrite csum_nil. match goal with |- R ?p ?q => replace p with q by lia; apply Rrefl end.
Qed.

Lemma run_pot cap es : forall s s' i c, d_run cap es s = Some s' -> nth_error (d_clients s) i = Some c ->
  exists c', nth_error (d_clients s') i = Some c' /\ R (cpot c' + spot i s') (cpot c + spot i s).
Proof.
  induction es as [|e es IH]; intros s s' i c E Hi; cbn [d_run] in E; [injection E as <-; exists c; split; [exact Hi|apply Rrefl]|].
  destruct (d_step cap e s) as [s1|] eqn:E1; [|discriminate E]. destruct (step_pot _ _ _ _ _ _ E1 Hi) as (c1 & Hi1 & R1).
  destruct (IH _ _ _ _ E Hi1) as (c2 & Hi2 & R2). exists c2. split; [exact Hi2|]. exact (Rtrans _ _ _ R2 R1).
Qed.
End Pot.

Lemma step_len cap e s s' : d_step cap e s = Some s' -> length (d_clients s') = length (d_clients s).
Proof. intros E. apply step_moved in E. destruct E; cbn [set_client d_clients]; rewrite ?set_nth_length; reflexivity. Qed.
Lemma run_len cap es : forall s s', d_run cap es s = Some s' -> length (d_clients s') = length (d_clients s).
Proof.
  induction es as [|e es IH]; intros s s' E; cbn [d_run] in E; [congruence|]. destruct (d_step cap e s) as [s1|] eqn:E1; [|discriminate E].
  rewrite (IH _ _ E). exact (step_len _ _ _ _ E1).
Qed.

Lemma csum_one l : csum one l = length l.
Proof. induction l as [|x l IH]; [reflexivity|]. rewrite csum_cons, IH. reflexivity. Qed.
Lemma one_cells m : csum one (cells m) = size m.
Proof. rewrite csum_cells. unfold one, size. lia. Qed.
Lemma ask_size_cells m : csum ask_size (cells m) = answer_size m.
Proof. rewrite csum_cells. unfold answer_size, ask_size. lia. Qed.
Lemma is_last_cells m : csum is_last (cells m) = 1.
Proof. rewrite csum_cells. cbn. lia. Qed.
Lemma is_ask_cells l : list_sum (map (fun m => csum is_ask (cells m)) l) = answered l.
Proof.
  unfold answered. induction l as [|m l IH]; [reflexivity|]. rewrite lsum_cons, IH, csum_cells. cbn [filter is_ask].
  destruct (m_answer m); cbn [length]; lia.
Qed.
Lemma is_last_all l : list_sum (map (fun m => csum is_last (cells m)) l) = length l.
Proof. induction l as [|m l IH]; [reflexivity|]. rewrite lsum_cons, IH, is_last_cells. reflexivity. Qed.
Lemma total_ext (f g : message -> nat) l : (forall m, f m = g m) -> list_sum (map f l) = list_sum (map g l).
Proof. intros H. f_equal. apply map_ext. exact H. Qed.

Lemma init_client cl casts i p : nth_error cl i = Some p -> nth_error (d_clients (duplex0 cl casts)) i = Some (client0 p).
Proof. intros H. cbn [duplex0 d_clients]. rewrite nth_error_map, H. reflexivity. Qed.

(** Everything has been received when all is finished. *)
Theorem all_received cap cl casts es s i p : d_run cap es (duplex0 cl casts) = Some s -> finished s -> nth_error cl i = Some p ->
  exists c, nth_error (d_clients s) i = Some c /\
    c_upgot c = length (fst p) + length (snd p) + answered casts /\
    c_downgot c = length casts + answered (fst p) + answered (snd p).
Proof.
  intros E (HF & Hs & _ & Hc) Hp. assert (Hi := init_client cl casts i p Hp).
  assert (U : forall x, csum is_ask (reply_of x) + 1 * is_last x = is_last x) by (intros [|[k|]]; cbn [reply_of reply is_last]; rewrite ?csum_cells; cbn; lia).
  assert (V : forall x, csum is_last (reply_of x) + 0 * is_last x = is_ask x) by (intros [|[k|]]; cbn [reply_of reply is_last is_ask]; rewrite ?csum_cells; cbn; lia).
  assert (V2 : forall x, csum is_last (reply_of x) + 0 * is_last x = is_ask x) by exact V.
  assert (ADD : forall a b c : nat, a = b -> a + c = b + c) by (intros; lia).
  destruct (run_pot eq (@eq_refl nat) (@eq_trans nat) ADD is_last is_ask 1 0 U V cap es _ _ i _ E Hi) as (c & Hci & P1).
  destruct (run_pot eq (@eq_refl nat) (@eq_trans nat) ADD is_ask is_last 0 1 V U cap es _ _ i _ E Hi) as (c2 & Hci2 & P2).
  assert (c2 = c) by congruence. subst c2. exists c. split; [exact Hci|].
  rewrite Forall_forall in HF. destruct (HF c (nth_error_In _ _ Hci)) as (F1 & F2 & F3 & F4 & F5 & F6).
  unfold cpot, spot in P1, P2. rewrite F1, F2, F3, F4, F5, F6, Hs, Hc in P1, P2. destruct p as [rq cs].
  cbn [client0 duplex0 c_up c_down c_requests c_casts c_out c_want c_upgot c_downgot d_send d_casts fst snd] in P1, P2 |- *.
  rewrite (is_last_all rq), (is_last_all cs), (is_ask_cells casts) in P1. rewrite (is_ask_cells rq), (is_ask_cells cs), (is_last_all casts) in P2. rewrite ?csum_nil in P1, P2. change (to i []) with (@nil cell) in P1, P2. rewrite ?csum_nil in P1, P2. cbn [map list_sum fold_right] in P1, P2. lia.
Qed.

(** ** When all goes well *)
Theorem fits cap cl casts es s : 0 < cap ->
  (forall rq cs, In (rq, cs) cl ->
     total size rq + total size cs + total answer_size casts <= cap \/ total size casts + total answer_size rq + total answer_size cs <= cap) ->
  d_run cap es (duplex0 cl casts) = Some s -> stuck cap s -> finished s.
Proof.
  intros Hcap Hfit E HS. assert (HI := run_inv _ _ _ _ (duplex0_inv cl casts) E). destruct (stuck_cases cap s Hcap HI HS) as [H|H]; [exact H|]. exfalso.
  destruct H as (i & rest & more & c & Hs & Hr & Hi & Hup & Hdown & Hws & Hout).
  assert (Hlen := nth_error_lt _ _ _ Hi). rewrite (run_len _ _ _ _ E) in Hlen. cbn [duplex0 d_clients] in Hlen. rewrite map_length in Hlen.
  destruct (nth_error cl i) as [[rq cs]|] eqn:Hp; [|apply nth_error_None in Hp; lia]. assert (Hi0 := init_client cl casts i _ Hp).
  assert (U : forall x, csum ask_size (reply_of x) + 0 * is_last x <= one x) by (intros [|[k|]]; cbn [reply_of reply]; rewrite ?csum_cells; cbn; lia).
  assert (V : forall x, csum one (reply_of x) + 0 * is_last x <= ask_size x) by (intros [|[k|]]; cbn [reply_of reply]; rewrite ?csum_one, ?csum_nil; [cbn; lia| |cbn; lia]; unfold cells; rewrite app_length, repeat_length; cbn; lia).
  assert (ADD : forall a b c : nat, a <= b -> a + c <= b + c) by (intros; lia).
  destruct (Hfit rq cs (nth_error_In _ _ Hp)) as [HF|HF].
  - destruct (run_pot le Nat.le_refl Nat.le_trans ADD one ask_size 0 0 U V cap es _ _ i _ E Hi0) as (c2 & Hc2 & P). assert (c2 = c) by congruence. subst c2.
    unfold cpot, spot in P. cbn [client0 duplex0 c_up c_down c_requests c_casts c_out c_want c_upgot c_downgot d_send d_casts fst snd] in P.
    rewrite ?csum_nil in P. change (to i []) with (@nil cell) in P. rewrite ?csum_nil in P.
    rewrite (total_ext _ _ rq one_cells), (total_ext _ _ cs one_cells), (total_ext _ _ casts ask_size_cells) in P. unfold total in HF. rewrite !csum_one in P.
    destruct (c_out c) as [|y o]; [congruence|]. cbn [length] in P. lia.
  - destruct (run_pot le Nat.le_refl Nat.le_trans ADD ask_size one 0 0 V U cap es _ _ i _ E Hi0) as (c2 & Hc2 & P). assert (c2 = c) by congruence. subst c2.
    unfold cpot, spot in P. cbn [client0 duplex0 c_up c_down c_requests c_casts c_out c_want c_upgot c_downgot d_send d_casts fst snd] in P.
    rewrite ?csum_nil in P. change (to i []) with (@nil cell) in P. rewrite ?csum_nil in P.
    rewrite (total_ext _ _ rq ask_size_cells), (total_ext _ _ cs ask_size_cells), (total_ext _ _ casts one_cells) in P. unfold total in HF. rewrite !csum_one in P.
    rewrite Hs, to_cons, Nat.eqb_refl, app_length in P. destruct rest as [|y o]; [congruence|]. cbn [length] in P. lia.
Qed.

(** The worker of no client ever sends. *)
Definition readers (s : duplex) : Prop :=
  (forall i c, nth_error (d_clients s) i = Some c -> c_want c = [] /\ c_casts c = [] /\ c_worker c = false /\ csum is_ask (c_down c) = 0) /\
  Forall (fun e => csum is_ask (snd e) = 0) (d_send s) /\ Forall (fun m => m_answer m = None) (d_casts s).
Lemma ask_reply x : csum is_ask (reply_of x) = 0.
Proof. destruct x as [|[k|]]; cbn [reply_of reply]; rewrite ?csum_cells; cbn; lia. Qed.
Lemma ask_zero x : is_ask x = 0 -> reply_of x = [].
Proof. destruct x as [|[k|]]; [reflexivity|discriminate|reflexivity]. Qed.
Lemma unanswered m : m_answer m = None -> csum is_ask (cells m) = 0.
Proof. intros H. rewrite csum_cells, H. cbn. lia. Qed.

Lemma step_readers cap e s s' : readers s -> d_step cap e s = Some s' -> readers s'.
Proof.
  intros (H1 & H2 & H3) E. apply step_moved in E. destruct E as [e j d d' Hi Hin|j d x up got Hi Hs Hu Hgo|j d x rest more Hi Hs Hl|m ms Hs Hc]; unfold readers; cbn [set_client d_clients d_send d_casts].
  - split; [|split; assumption]. intros k z Hk. destruct (nth_set _ _ _ _ _ _ Hi Hk) as [[-> ->]|[_ Hk']]; [|exact (H1 _ _ Hk')].
    destruct (H1 _ _ Hi) as (A1 & A2 & A3 & A4). destruct Hin as [c x down Hfr Hd|c x out Ho Hl|c Ho Hw|c m ms Ho Hr|c m ms Hfr Hc]; cbn [c_want c_casts c_worker c_down].
    + rewrite Hd, csum_cons in A4. assert (X : is_ask x = 0) by lia. apply ask_zero in X. destruct x; cbn [reply_of] in X; repeat split; try assumption; lia.
    + auto.
    + congruence.
    + auto.
    + congruence.
  - split; [|split; [|assumption]].
    + intros k z Hk. destruct (nth_set _ _ _ _ _ _ Hi Hk) as [[-> ->]|[_ Hk']]; [exact (H1 _ _ Hi)|exact (H1 _ _ Hk')].
    + destruct x as [|[k|]]; [constructor| |constructor]. constructor; [|constructor]. cbn [snd]. apply (ask_reply (Last (Some k))).
  - rewrite Hs in H2. inversion_clear H2 as [|e0 l0 X HF]. cbn [snd] in X. rewrite csum_cons in X. split; [|split; [|assumption]].
    + intros k z Hk. destruct (nth_set _ _ _ _ _ _ Hi Hk) as [[-> ->]|[_ Hk']]; [|exact (H1 _ _ Hk')]. destruct (H1 _ _ Hi) as (A1 & A2 & A3 & A4). cbn [c_want c_casts c_worker c_down].
      rewrite csum_app, csum_cons, csum_nil. repeat split; try assumption; lia.
    + destruct rest as [|y rest]; [exact HF|]. constructor; [cbn [snd]; lia|exact HF].
  - rewrite Hc in H3. inversion_clear H3 as [|e0 l0 X HF]. split; [exact H1|]. split; [|exact HF].
    apply Forall_forall. intros e He. apply in_map_iff in He. destruct He as (k & <- & _). cbn [snd]. now apply unanswered.
Qed.
Lemma run_readers cap es : forall s s', readers s -> d_run cap es s = Some s' -> readers s'.
Proof.
  induction es as [|e es IH]; intros s s' H E; cbn [d_run] in E; [congruence|]. destruct (d_step cap e s) as [s1|] eqn:E1; [|discriminate E].
  exact (IH _ _ (step_readers _ _ _ _ H E1) E).
Qed.

Theorem one_way cap cl casts es s : 0 < cap -> Forall (fun p => snd p = []) cl -> Forall (fun m => m_answer m = None) casts ->
  d_run cap es (duplex0 cl casts) = Some s -> stuck cap s -> finished s.
Proof.
  intros Hcap H1 H2 E HS. assert (HI := run_inv _ _ _ _ (duplex0_inv cl casts) E). destruct (stuck_cases cap s Hcap HI HS) as [H|H]; [exact H|]. exfalso.
  assert (H0 : readers (duplex0 cl casts)).
  { split; [|split; [constructor|exact H2]]. intros i c Hi. cbn [duplex0 d_clients] in Hi. rewrite nth_error_map in Hi. destruct (nth_error cl i) as [p|] eqn:Hp; [|discriminate Hi].
    injection Hi as <-. rewrite Forall_forall in H1. specialize (H1 p (nth_error_In _ _ Hp)). cbn. auto. }
  destruct (run_readers _ _ _ _ H0 E) as (HR & _). destruct H as (i & rest & more & c & _ & _ & Hi & _ & _ & Hws & _).
  destruct (HR _ _ Hi) as (A1 & _ & A3 & _). destruct Hws as [Hw|(_ & Hw)]; congruence.
Qed.

Theorem stuck_ring cap cl casts es s : 0 < cap -> d_run cap es (duplex0 cl casts) = Some s -> stuck cap s -> finished s \/ ring cap s.
Proof. intros Hcap E HS. exact (stuck_cases cap s Hcap (run_inv _ _ _ _ (duplex0_inv cl casts) E) HS). Qed.

(** ** Once two workers wait for each other, the server is lost for everybody *)
Lemma worker_busy c : worker_sends c -> worker_free c = false.
Proof.
  unfold worker_sends, worker_free. intros [H|(H1 & H2)].
  - destruct (c_want c); [congruence|reflexivity].
  - destruct (c_want c); [|reflexivity]. destruct (c_out c); [congruence|]. now rewrite H2.
Qed.

Lemma map_set_same {A B} (f : A -> B) l : forall i x y, nth_error l i = Some y -> f x = f y -> map f (set_nth i x l) = map f l.
Proof.
  induction l as [|z l IH]; intros [|i] x y H E; try discriminate H; cbn [nth_error set_nth map] in *.
  - injection H as ->. now rewrite E.
  - f_equal. now apply (IH i x y).
Qed.

Lemma ring_step cap e s s' : ring cap s -> d_step cap e s = Some s' -> ring cap s' /\ map c_upgot (d_clients s') = map c_upgot (d_clients s).
Proof.
  intros (i & rest & more & c & Hs & Hr & Hi & Hup & Hdown & Hws & Hout) E. assert (HF := worker_busy c Hws).
  assert (K : forall j c0 c1, nth_error (d_clients s) j = Some c0 -> j <> i -> c_upgot c1 = c_upgot c0 ->
    ring cap (set_client j c1 s) /\ map c_upgot (d_clients (set_client j c1 s)) = map c_upgot (d_clients s)).
  { intros j c0 c1 Hj Hne Hg. split.
    - exists i, rest, more, c. cbn [set_client d_send d_clients]. rewrite set_nth_other by congruence. auto 10.
    - cbn [set_client d_clients]. now apply (map_set_same c_upgot _ j c1 c0). }
  destruct e as [j| | |j|j|j|j|j]; cbn [d_step] in E.
  - rewrite Hs in E. discriminate E.
  - rewrite Hs in E. destruct rest as [|x rest]; [congruence|]. rewrite Hi in E. replace (length (c_down c) <? cap) with false in E by (symmetry; now apply Nat.ltb_ge). discriminate E.
  - rewrite Hs in E. discriminate E.
  - destruct (nth_error (d_clients s) j) as [c0|] eqn:Hj; [|discriminate E]. destruct (Nat.eq_dec j i) as [->|Hne].
    + assert (c0 = c) by congruence. subst c0. rewrite HF in E. discriminate E.
    + destruct (worker_free c0); [|discriminate E]. destruct (c_down c0) as [|[|a] down]; [discriminate E| |]; injection E as <-; now apply (K j c0).
  - destruct (nth_error (d_clients s) j) as [c0|] eqn:Hj; [|discriminate E]. destruct (Nat.eq_dec j i) as [->|Hne].
    + assert (c0 = c) by congruence. subst c0. destruct (c_out c) as [|x out]; [congruence|].
      replace (length (c_up c) <? cap) with false in E by (symmetry; now apply Nat.ltb_ge). discriminate E.
    + destruct (c_out c0) as [|x out]; [discriminate E|]. destruct (length (c_up c0) <? cap); [|discriminate E]. injection E as <-. now apply (K j c0).
  - destruct (nth_error (d_clients s) j) as [c0|] eqn:Hj; [|discriminate E]. destruct (Nat.eq_dec j i) as [->|Hne].
    + assert (c0 = c) by congruence. subst c0. destruct (c_out c) as [|x out]; [congruence|]. discriminate E.
    + destruct (c_out c0) as [|x out]; [|discriminate E]. destruct (c_want c0) as [|w wl]; [discriminate E|]. injection E as <-. now apply (K j c0).
  - destruct (nth_error (d_clients s) j) as [c0|] eqn:Hj; [|discriminate E]. destruct (Nat.eq_dec j i) as [->|Hne].
    + assert (c0 = c) by congruence. subst c0. destruct (c_out c) as [|x out]; [congruence|]. discriminate E.
    + destruct (c_out c0) as [|x out]; [|discriminate E]. destruct (c_requests c0) as [|w wl]; [discriminate E|]. injection E as <-. now apply (K j c0).
  - destruct (nth_error (d_clients s) j) as [c0|] eqn:Hj; [|discriminate E]. destruct (Nat.eq_dec j i) as [->|Hne].
    + assert (c0 = c) by congruence. subst c0. rewrite HF in E. discriminate E.
    + destruct (worker_free c0 && negb (c_mid c0)); [|discriminate E]. destruct (c_casts c0) as [|w wl]; [discriminate E|]. injection E as <-. now apply (K j c0).
Qed.

Theorem ring_forever cap es : forall s s', ring cap s -> d_run cap es s = Some s' -> ring cap s' /\ map c_upgot (d_clients s') = map c_upgot (d_clients s).
Proof.
  induction es as [|e es IH]; intros s s' HR E; cbn [d_run] in E; [injection E as <-; auto|].
  destruct (d_step cap e s) as [s1|] eqn:E1; [|discriminate E]. destruct (ring_step _ _ _ _ HR E1) as (HR1 & H1). destruct (IH _ _ HR1 E) as (HR2 & H2).
  split; [exact HR2|congruence].
Qed.

(** ** Runs that go on as long as possible *)
Definition stuckb (cap : nat) (s : duplex) : bool :=
  forallb (fun e => match d_step cap e s with None => true | Some _ => false end)
    (SrvSend :: SrvCast :: flat_map (fun i => [SrvRead i; CliRead i; CliSend i; CliLock i; CliRequest i; CliCast i]) (seq 0 (length (d_clients s)))).
Lemma stuck_dec cap s : stuck cap s \/ exists e s', d_step cap e s = Some s'.
Proof.
  destruct (stuckb cap s) eqn:B.
  - left. unfold stuckb in B. rewrite forallb_forall in B.
    assert (G : forall e, In e (SrvSend :: SrvCast :: flat_map (fun i => [SrvRead i; CliRead i; CliSend i; CliLock i; CliRequest i; CliCast i]) (seq 0 (length (d_clients s)))) -> d_step cap e s = None).
    { intros e H. specialize (B e H). cbn beta in B. destruct (d_step cap e s); [discriminate B|reflexivity]. }
    assert (GI : forall i e, In e [SrvRead i; CliRead i; CliSend i; CliLock i; CliRequest i; CliCast i] -> d_step cap e s = None).
    { intros i e H. destruct (Nat.lt_ge_cases i (length (d_clients s))) as [L|L].
      - apply G. right. right. apply in_flat_map. exists i. split; [apply in_seq; lia|exact H].
      - apply nth_error_None in L. cbn [In] in H. repeat (destruct H as [<-|H]); try contradiction H; cbn [d_step]; rewrite L; try reflexivity. now destruct (d_send s). }
    intros [i| | |i|i|i|i|i].
    + apply (GI i); cbn; auto.
    + apply G; cbn; auto.
    + apply G; cbn; auto.
    + apply (GI i); cbn; auto.
    + apply (GI i); cbn; auto.
    + apply (GI i); cbn; auto.
    + apply (GI i); cbn; auto 10.
    + apply (GI i); cbn; auto 10.
  - right. unfold stuckb in B. assert (X : exists e, d_step cap e s <> None).
    { match type of B with forallb ?f ?l = false => assert (H : existsb (fun x => negb (f x)) l = true) end.
      { match type of B with forallb ?f ?l = false => generalize l, B end. clear B. intros l. induction l as [|e l IH]; cbn [forallb existsb]; [discriminate|].
        intros H. apply andb_false_iff in H. destruct H as [H|H]; [rewrite H; reflexivity|]. rewrite (IH H). apply orb_true_r. }
      apply existsb_exists in H. destruct H as (e & _ & H). exists e. destruct (d_step cap e s); [discriminate|discriminate H]. }
    destruct X as (e & X). exists e. destruct (d_step cap e s) as [s'|]; [now exists s'|congruence].
Qed.

Lemma run_snoc cap es1 es2 : forall s s1, d_run cap es1 s = Some s1 -> d_run cap (es1 ++ es2) s = d_run cap es2 s1.
Proof.
  induction es1 as [|e es1 IH]; intros s s1 E; cbn [d_run app] in *; [congruence|]. destruct (d_step cap e s) as [s'|]; [|discriminate E]. now apply IH.
Qed.

Theorem bounded cap s : exists n, forall es s', d_run cap es s = Some s' -> length es <= n.
Proof. exists (work s). intros es s' E. apply runs_end in E. lia. Qed.
Theorem goes_on cap : forall s, exists es s', d_run cap es s = Some s' /\ stuck cap s'.
Proof.
  intros s. remember (work s) as n eqn:Hn. revert s Hn. induction n as [n IH] using lt_wf_ind. intros s ->.
  destruct (stuck_dec cap s) as [H|(e & s1 & E1)]; [exists [], s; auto|].
  assert (L := step_work _ _ _ _ E1). destruct (IH (work s1) ltac:(lia) s1 eq_refl) as (es & s' & E & HS).
  exists (e :: es), s'. split; [cbn [d_run]; rewrite E1; exact E|exact HS].
Qed.
