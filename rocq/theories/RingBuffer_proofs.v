From Coq Require Import List Arith Bool Lia.
Import ListNotations.
From Verif Require Import RingBuffer_model RingBuffer_spec.

Lemma mod_add_small m a d : d < m ->
  (a + d) mod m = if (a mod m + d) <? m then a mod m + d else a mod m + d - m.
Proof.
  intros Hd. pose proof (Nat.mod_upper_bound a m ltac:(lia)) as Hb.
  rewrite <- (Nat.add_mod_idemp_l a d m) by lia.
  destruct (Nat.ltb_spec (a mod m + d) m) as [H|H].
  - apply Nat.mod_small; lia.
  - replace (a mod m + d) with ((a mod m + d - m) + 1 * m) at 1 by lia.
    rewrite Nat.mod_add by lia. apply Nat.mod_small; lia.
Qed.

Lemma mod_inj m a b : a <= b -> b < a + m -> a mod m = b mod m -> a = b.
Proof.
  intros Hab Hb E. replace b with (a + (b - a)) in E by lia.
  rewrite mod_add_small in E by lia.
  pose proof (Nat.mod_upper_bound a m ltac:(lia)).
  destruct (Nat.ltb_spec (a mod m + (b - a)) m); lia.
Qed.

Lemma mod_lt_sep m a b : 0 < m -> a mod m = b mod m -> a < b -> a + m <= b.
Proof. intros Hm E H. destruct (Nat.le_gt_cases (a + m) b) as [?|?]; [assumption|].
  assert (a = b) by (apply (mod_inj m); auto; lia). lia. Qed.

Lemma available_mod m c R : R <= c -> c < R + m -> available m (c mod m) (R mod m) = c - R.
Proof.
  intros H1 H2. replace c with (R + (c - R)) by lia. set (d := c - R). replace (R + d - R) with d by lia.
  assert (d < m) by (unfold d; lia).
  rewrite mod_add_small by lia. unfold available.
  pose proof (Nat.mod_upper_bound R m ltac:(lia)).
  destruct (Nat.ltb_spec (R mod m + d) m).
  - destruct (Nat.leb_spec (R mod m) (R mod m + d)); lia.
  - destruct (Nat.leb_spec (R mod m) (R mod m + d - m)); lia.
Qed.

Section Proofs.
Context {A : Type}.
Implicit Types (s : st A) (tr : list (event A)).

Lemma accepted_app tr1 tr2 : accepted (tr1 ++ tr2) = accepted tr1 ++ accepted tr2.
Proof. induction tr1 as [|e tr1 IH]; cbn; [reflexivity|].
  destruct e as [|? []| | | |]; cbn; congruence. Qed.
Lemma returned_app tr1 tr2 : returned (tr1 ++ tr2) = returned tr1 ++ returned tr2.
Proof. induction tr1 as [|e tr1 IH]; cbn; [reflexivity|].
  destruct e as [| | |[]| |]; cbn; try congruence.
  rewrite IH, app_assoc; reflexivity. Qed.

Definition moved (c : cpc A) : nat :=
  match c with CPopSt _ _ => 1 | CInto _ _ k _ => k | _ => 0 end.

Record Inv (n : nat) s (rcs : list nat) : Prop := {
  i_max : maxs s = n;
  i_pos : 0 < n;
  i_whist : whist s = map (fun i => (i mod n, i)) (seq 0 (S (length (accepted (trace s)))));
  i_pclk : pclk s = S (length (accepted (trace s)));
  i_rlen : length rcs = length (rhist s);
  i_rcclk : cclk s = length rcs;
  i_rhist : forall i, i < length rcs -> nth i (rhist s) (0,0) = (nth i rcs 0 mod n, i);
  i_rpos : 0 < length rcs;
  i_rmono : forall i j, i <= j -> j < length rcs -> nth i rcs 0 <= nth j rcs 0;
  i_rlast : nth (length rcs - 1) rcs 0 = length (returned (trace s));
  i_pview : pview s < length rcs;
  i_pknows : pknows s = pview s;
  i_cview : cview s <= length (accepted (trace s));
  i_cknows : cknows s = cview s;
  i_room : length (accepted (trace s)) < nth (pview s) rcs 0 + n;
  i_rc : length (returned (trace s)) <= cview s;
  i_vals : returned (trace s) = map Some (firstn (length (returned (trace s))) (accepted (trace s)));
  i_slots : forall k, length (returned (trace s)) + moved (cp s) <= k -> k < length (accepted (trace s)) ->
            slot s (k mod n) = nth_error (accepted (trace s)) k;
  i_slotP : forall k, length (returned (trace s)) <= k -> k < length (accepted (trace s)) ->
            slotP s (k mod n) = S k;
  i_slotC : forall x, x < n -> slotC s x = 0 \/ exists q, q mod n = x /\ q < length (returned (trace s)) + moved (cp s) /\
            ((length (returned (trace s)) <= q /\ slotC s x <= length rcs) \/
             (q < length (returned (trace s)) /\ forall e, e < length rcs -> q < nth e rcs 0 -> slotC s x <= e));
  i_cpc : match cp s with
          | CIdle | CLd _ => True
          | CPopMv r => r = length (returned (trace s)) mod n /\ length (returned (trace s)) < cview s
          | CPopSt r x => r = length (returned (trace s)) mod n /\ length (returned (trace s)) < cview s
                          /\ exists v, x = Some v /\ nth_error (accepted (trace s)) (length (returned (trace s))) = Some v
          | CInto r cnt k out => r = length (returned (trace s)) mod n /\ k <= cnt /\
               length (returned (trace s)) + cnt <= cview s /\
               out = map Some (firstn k (skipn (length (returned (trace s))) (accepted (trace s))))
          end;
  i_ppc : match pp s with
          | PIdle => True
          | PChk v w next => w = length (accepted (trace s)) mod n /\ next = (length (accepted (trace s)) + 1) mod n
          | PWr v w next => w = length (accepted (trace s)) mod n /\ next = (length (accepted (trace s)) + 1) mod n
               /\ length (accepted (trace s)) + 1 < nth (pview s) rcs 0 + n
          | PSt v next => next = (length (accepted (trace s)) + 1) mod n
               /\ length (accepted (trace s)) + 1 < nth (pview s) rcs 0 + n
               /\ slot s (length (accepted (trace s)) mod n) = Some v
               /\ slotP s (length (accepted (trace s)) mod n) = S (length (accepted (trace s)))
          end;
  i_raced : raced s = false;
  i_oob : oob s = false }.

Lemma init_inv n s0 : init n = Some s0 -> Inv n s0 [0].
Proof.
  unfold init. destruct (Nat.eqb_spec n 0) as [|Hn]; [discriminate|]. intros E; injection E as <-.
  constructor; cbn [maxs slot slotP slotC whist rhist pview cview pclk cclk pknows cknows pp cp raced oob trace
    accepted returned length moved]; try reflexivity; try lia; auto.
  - cbn [seq map]. rewrite Nat.mod_small by lia. reflexivity.
  - intros i Hi. destruct i; [|cbn in Hi; lia]. cbn. rewrite Nat.mod_small by lia. reflexivity.
  - intros i j Hij Hj. destruct j; [|cbn in Hj; lia]. destruct i; lia.
Qed.

(* the newest count of released values bounds every other *)
Lemma rc_le n s rcs i : Inv n s rcs -> i < length rcs -> nth i rcs 0 <= length (returned (trace s)).
Proof. intros H Hi. rewrite <- (i_rlast _ _ _ H). apply (i_rmono _ _ _ H); lia. Qed.

Lemma last_nth {B} (l : list B) d : last l d = nth (length l - 1) l d.
Proof. induction l as [|x l IH]; [reflexivity|]. destruct l as [|y l]; [reflexivity|].
  change (last (x :: y :: l) d) with (last (y :: l) d). rewrite IH. cbn [length nth].
  replace (S (S (length l)) - 1) with (S (length l)) by lia.
  replace (S (length l) - 1) with (length l) by lia. cbn [nth]. reflexivity. Qed.

Lemma latest_r n s rcs : Inv n s rcs -> latest (rhist s) = length (returned (trace s)) mod n.
Proof. intros H. unfold latest. rewrite last_nth, <- (i_rlen _ _ _ H).
  rewrite (i_rhist _ _ _ H) by (pose proof (i_rpos _ _ _ H); lia). cbn [fst].
  rewrite (i_rlast _ _ _ H). reflexivity. Qed.

Lemma whist_len n s rcs : Inv n s rcs -> length (whist s) = S (length (accepted (trace s))).
Proof. intros H. rewrite (i_whist _ _ _ H), map_length, seq_length. reflexivity. Qed.

Lemma whist_nth n s rcs i : Inv n s rcs -> i <= length (accepted (trace s)) -> nth i (whist s) (0,0) = (i mod n, i).
Proof. intros H Hi. rewrite (i_whist _ _ _ H). set (f := fun i => (i mod n, i)).
  rewrite (nth_indep _ (0,0) (f 0)) by (rewrite map_length, seq_length; lia).
  rewrite map_nth, seq_nth by lia. reflexivity. Qed.

Lemma latest_w n s rcs : Inv n s rcs -> latest (whist s) = length (accepted (trace s)) mod n.
Proof. intros H. unfold latest. rewrite last_nth, (whist_len _ _ _ H).
  rewrite (whist_nth _ _ _ _ H) by lia. cbn [fst]. f_equal; lia. Qed.

Ltac simpl_st := cbn [maxs slot slotP slotC whist rhist pview cview pclk cclk pknows cknows pp cp raced oob trace
    set_pp set_cp emit p_load c_load p_store c_store p_access c_access moved].
Ltac simpl_st_in H := cbn [maxs slot slotP slotC whist rhist pview cview pclk cclk pknows cknows pp cp raced oob trace
    set_pp set_cp emit p_load c_load p_store c_store p_access c_access moved] in H.

(* trace unaffected by an event that is neither an accepting return nor a returning pop *)
Lemma acc_snoc tr e : match e with EPushRet _ true => False | _ => True end -> accepted (tr ++ [e]) = accepted tr.
Proof. intros H. rewrite accepted_app. destruct e as [|? []| | | |]; cbn in *; try (rewrite app_nil_r); tauto. Qed.
Lemma ret_snoc tr e : match e with ERetPop (Some _) => False | ERetInto _ => False | _ => True end -> returned (tr ++ [e]) = returned tr.
Proof. intros H. rewrite returned_app. destruct e as [| | |[]| |]; cbn in *; try (rewrite app_nil_r); tauto. Qed.

Lemma firstn_snoc {B} (l : list B) k v : nth_error l k = Some v -> firstn (S k) l = firstn k l ++ [v].
Proof. revert k; induction l as [|x l IH]; intros [|k] H; cbn in *; try discriminate.
  - congruence. - rewrite (IH k H). reflexivity. Qed.
Lemma nth_error_skipn' {B} (l : list B) k j : nth_error (skipn k l) j = nth_error l (k + j).
Proof. revert l; induction k as [|k IH]; intros [|x l]; cbn; auto. destruct j; reflexivity. Qed.

Lemma upd_same {B} (f : nat -> B) i b : upd f i b i = b.
Proof. unfold upd. rewrite Nat.eqb_refl. reflexivity. Qed.
Lemma upd_other {B} (f : nat -> B) i j b : j <> i -> upd f i b j = f j.
Proof. unfold upd. intros H. destruct (Nat.eqb_spec j i); congruence. Qed.

Lemma ret_le_acc n s rcs : Inv n s rcs -> length (returned (trace s)) <= length (accepted (trace s)).
Proof. intros H. pose proof (i_rc _ _ _ H). pose proof (i_cview _ _ _ H). lia. Qed.

Lemma full_room n s rcs : Inv n s rcs -> length (accepted (trace s)) < length (returned (trace s)) + n.
Proof. intros H. pose proof (i_room _ _ _ H). pose proof (rc_le _ _ _ _ H (i_pview _ _ _ H)). lia. Qed.

Lemma moved_le n s rcs : Inv n s rcs -> length (returned (trace s)) + moved (cp s) <= cview s.
Proof. intros H. pose proof (i_cpc _ _ _ H) as Hc. pose proof (i_rc _ _ _ H).
  destruct (cp s) as [| |r|r x|r cnt k out]; cbn [moved]; lia. Qed.

(* producer: call *)
Lemma inv_push n s rcs v : Inv n s rcs -> pp s = PIdle ->
  Inv n (emit (set_pp s (PChk v (latest (whist s)) ((latest (whist s) + 1) mod maxs s))) (EPushCall v)) rcs.
Proof.
  intros H Hp. pose proof (i_pos _ _ _ H) as Hn.
  destruct H; constructor; simpl_st; rewrite ?acc_snoc, ?ret_snoc by exact I; auto.
  assert (HI : Inv n s rcs) by (constructor; auto).
  rewrite (latest_w _ _ _ HI), i_max0. split; [reflexivity|].
  rewrite Nat.add_mod_idemp_l by lia. reflexivity.
Qed.

Lemma inv_ccall n s rcs o : Inv n s rcs -> cp s = CIdle -> Inv n (emit (set_cp s (CLd o)) (ECall o)) rcs.
Proof.
  intros H Hc. destruct H; constructor; simpl_st; rewrite ?acc_snoc, ?ret_snoc by exact I; auto.
  - intros k Hk1 Hk2. apply i_slots0; rewrite ?Hc; cbn [moved]; lia.
  - intros x Hx. specialize (i_slotC0 x Hx). rewrite Hc in i_slotC0. exact i_slotC0.
Qed.

(* producer: load of read_index_ *)
Lemma inv_pload n s rcs i v w next : Inv n s rcs -> pp s = PChk v w next -> readable (pview s) i (rhist s) = true ->
  Inv n (p_load s i (fst (nth i (rhist s) (0,0))) (snd (nth i (rhist s) (0,0)))) rcs.
Proof.
  intros H Hp Hr. unfold readable in Hr. apply andb_prop in Hr. destruct Hr as [Hr1 Hr2].
  apply Nat.leb_le in Hr1. apply Nat.ltb_lt in Hr2.
  rewrite <- (i_rlen _ _ _ H) in Hr2.
  destruct H; constructor; simpl_st; auto.
  - rewrite (i_rhist0 i) by lia. cbn [snd]. rewrite i_pknows0. lia.
  - pose proof (i_rmono0 _ _ Hr1 Hr2). lia.
  - rewrite Hp in *. exact i_ppc0.
Qed.

Lemma inv_pstep n s rcs i s' : Inv n s rcs -> pstep s i = Some s' -> Inv n s' rcs.
Proof.
  intros H E. unfold pstep in E. pose proof (i_pos _ _ _ H) as Hn.
  destruct (pp s) as [|v w next|v w next|v next] eqn:Hp; [discriminate| | |].
  - (* load read_index_ *)
    destruct (readable (pview s) i (rhist s)) eqn:Hr; [|discriminate].
    pose proof (inv_pload _ _ _ _ _ _ _ H Hp Hr) as HI.
    destruct (nth i (rhist s) (0,0)) as [rv rc] eqn:Hnth. cbn [fst snd] in HI.
    pose proof (i_ppc _ _ _ H) as Hpc. rewrite Hp in Hpc. destruct Hpc as [Hw Hnext].
    assert (Hi : i < length rcs).
    { unfold readable in Hr. apply andb_prop in Hr. rewrite (i_rlen _ _ _ H). apply Nat.ltb_lt. tauto. }
    assert (Hrv : rv = nth i rcs 0 mod n).
    { pose proof (i_rhist _ _ _ H i Hi) as E2. rewrite Hnth in E2. congruence. }
    destruct (Nat.eqb_spec next rv) as [Heq|Hne]; injection E as <-.
    + destruct HI; constructor; simpl_st; rewrite ?acc_snoc, ?ret_snoc by exact I; auto.
    + pose proof (i_room _ _ _ HI) as Hroom. simpl_st_in Hroom.
      destruct HI; constructor; simpl_st; auto.
      repeat split; auto.
      assert (length (accepted (trace s)) + 1 <> nth i rcs 0 + n); [|lia].
      intros Hbad. apply Hne. subst next rv. rewrite Hbad.
      rewrite <- (Nat.mod_add (nth i rcs 0) 1 n) by lia. f_equal. lia.
  - (* write the element *)
    injection E as <-. pose proof (i_ppc _ _ _ H) as Hpc. rewrite Hp in Hpc. destruct Hpc as (Hw & Hnext & Hroom).
    pose proof (ret_le_acc _ _ _ H) as HRW. pose proof (full_room _ _ _ H) as HF.
    assert (Hdist : forall k, length (returned (trace s)) <= k -> k < length (accepted (trace s)) -> k mod n <> w).
    { intros k Hk1 Hk2 Ek. rewrite Hw in Ek. pose proof (mod_lt_sep n k _ Hn Ek Hk2). lia. }
    pose proof (moved_le _ _ _ H) as Hmv.
    assert (Hwn : w < n) by (rewrite Hw; apply Nat.mod_upper_bound; lia).
    destruct H; constructor; simpl_st; auto.
    + intros k Hk1 Hk2. rewrite upd_other by (apply Hdist; lia). apply i_slots0; lia.
    + intros k Hk1 Hk2. rewrite upd_other by (apply Hdist; lia). apply i_slotP0; lia.
    + repeat split; auto; rewrite <- Hw, upd_same; congruence.
    + rewrite i_raced0, i_pknows0. cbn [orb]. apply Nat.ltb_ge.
      destruct (i_slotC0 w Hwn) as [E0|(q & Hq & Hq2 & Hq3)]; [lia|].
      assert (HqW : q < length (accepted (trace s))).
      { lia. }
      rewrite Hw in Hq. pose proof (mod_lt_sep n q _ Hn Hq HqW) as Hsep.
      assert (Hle : nth (pview s) rcs 0 <= length (returned (trace s))).
      { rewrite <- i_rlast0. apply i_rmono0; lia. }
      destruct Hq3 as [[Hq3 _]|[_ Hq3]]; [lia|]. apply Hq3; lia.
    + rewrite i_oob0, i_max0. cbn [orb]. apply Nat.leb_gt. lia.
  - (* store write_index_ *)
    injection E as <-. pose proof (i_ppc _ _ _ H) as Hpc. rewrite Hp in Hpc. destruct Hpc as (Hnext & Hroom & Hsl & HslP).
    pose proof (ret_le_acc _ _ _ H) as HRW.
    assert (EA : accepted (trace s ++ [EPushRet v true]) = accepted (trace s) ++ [v]) by (rewrite accepted_app; reflexivity).
    assert (ER : returned (trace s ++ [EPushRet v true]) = returned (trace s)) by (apply ret_snoc; exact I).
    destruct H; constructor; simpl_st; rewrite ?EA, ?ER, ?app_length; cbn [length]; auto; try lia.
    + rewrite i_whist0, i_pclk0, Hnext.
      replace (S (length (accepted (trace s)) + 1)) with (S (length (accepted (trace s))) + 1) by lia.
      rewrite (seq_app (S (length (accepted (trace s)))) 1 0), map_app. cbn [seq map Nat.add]. rewrite Nat.add_1_r. reflexivity.
    + rewrite i_vals0 at 1. rewrite firstn_app.
      replace (length (returned (trace s)) - length (accepted (trace s))) with 0 by lia.
      cbn [firstn]. rewrite app_nil_r. reflexivity.
    + intros k Hk1 Hk2. destruct (Nat.eq_dec k (length (accepted (trace s)))) as [->|Hne].
      * rewrite Hsl, nth_error_app2, Nat.sub_diag by lia. reflexivity.
      * rewrite nth_error_app1 by lia. apply i_slots0; lia.
    + intros k Hk1 Hk2. destruct (Nat.eq_dec k (length (accepted (trace s)))) as [->|Hne]; [exact HslP|].
      apply i_slotP0; lia.
    + destruct (cp s) as [| |r|r x|r cnt k out]; auto.
      * destruct i_cpc0 as (H1 & H2 & v0 & H3 & H4). repeat split; auto. exists v0. split; auto.
        rewrite nth_error_app1 by lia. exact H4.
      * destruct i_cpc0 as (H1 & H2 & H3 & H4). repeat split; auto. subst out. f_equal.
        rewrite skipn_app, firstn_app.
        replace (k - length (skipn (length (returned (trace s))) (accepted (trace s)))) with 0
          by (rewrite skipn_length; lia).
        cbn [firstn]. rewrite app_nil_r. reflexivity.
Qed.

(* consumer: releasing [c] values moved so far *)
Lemma inv_cstore n s rcs e c :
  Inv n s rcs -> moved (cp s) = c ->
  returned [e] = map Some (firstn c (skipn (length (returned (trace s))) (accepted (trace s)))) ->
  accepted [e] = [] ->
  length (returned (trace s)) + c <= cview s ->
  Inv n (emit (set_cp (c_store s ((length (returned (trace s)) + c) mod n)) CIdle) e)
        (rcs ++ [length (returned (trace s)) + c]).
Proof.
  intros H Hmv He Hea Hc. pose proof (i_pos _ _ _ H) as Hn.
  assert (EA : accepted (trace s ++ [e]) = accepted (trace s)).
  { rewrite accepted_app, Hea, app_nil_r. reflexivity. }
  assert (Hcv := i_cview _ _ _ H).
  assert (Hlen : length (returned [e]) = c).
  { rewrite He, map_length, firstn_length, skipn_length. lia. }
  assert (EL : length (returned (trace s ++ [e])) = length (returned (trace s)) + c).
  { rewrite returned_app, app_length, Hlen. reflexivity. }
  assert (Hrle : forall i, i < length rcs -> nth i rcs 0 <= length (returned (trace s))).
  { intros i Hi. apply (rc_le _ _ _ _ H Hi). }
  destruct H; constructor; simpl_st; rewrite ?EA, ?EL, ?app_length; cbn [length]; auto; try lia.
  - intros i Hi. destruct (Nat.eq_dec i (length rcs)) as [->|Hne].
    + rewrite app_nth2 by lia. rewrite i_rlen0, Nat.sub_diag. cbn [nth].
      rewrite <- i_rlen0, app_nth2, Nat.sub_diag by lia. cbn [nth]. rewrite i_rcclk0. reflexivity.
    + rewrite !app_nth1 by lia. apply i_rhist0; lia.
  - intros i j Hij Hj. destruct (Nat.eq_dec j (length rcs)) as [->|Hne].
    + assert (Ex : nth (length rcs) (rcs ++ [length (returned (trace s)) + c]) 0 = length (returned (trace s)) + c)
        by (rewrite app_nth2, Nat.sub_diag by lia; reflexivity).
      rewrite Ex.
      destruct (Nat.eq_dec i (length rcs)) as [->|Hne].
      * rewrite Ex. lia.
      * rewrite app_nth1 by lia. pose proof (Hrle i ltac:(lia)). lia.
    + rewrite !app_nth1 by lia. apply i_rmono0; lia.
  - replace (length rcs + 1 - 1) with (length rcs) by lia.
    rewrite app_nth2, Nat.sub_diag by lia. reflexivity.
  - rewrite app_nth1 by lia. exact i_room0.
  - rewrite returned_app, He. rewrite i_vals0 at 1. rewrite <- map_app. f_equal.
    rewrite <- (firstn_skipn (length (returned (trace s))) (accepted (trace s))) at 3.
    rewrite firstn_app. rewrite firstn_length_le by lia.
    rewrite (firstn_all2 (firstn _ _)) by (rewrite firstn_length; lia).
    f_equal. f_equal. lia.
  - intros k Hk1 Hk2. apply i_slots0; lia.
  - intros k Hk1 Hk2. apply i_slotP0; lia.
  - intros x Hx. destruct (i_slotC0 x Hx) as [E0|(q & Hq1 & Hq2 & Hq3)]; [left; exact E0|].
    right. exists q. split; [exact Hq1|]. split; [lia|].
    right. split; [lia|]. intros e0 He0 Hq4. destruct (Nat.eq_dec e0 (length rcs)) as [->|Hne].
    + destruct Hq3 as [[_ Hq3]|[HqR Hq3]]; [exact Hq3|].
      pose proof (Hq3 (length rcs - 1) ltac:(lia)) as H. rewrite i_rlast0 in H. specialize (H HqR). lia.
    + rewrite app_nth1 in Hq4 by lia. destruct Hq3 as [[Hq3 _]|[_ Hq3]].
      * pose proof (Hrle e0 ltac:(lia)). lia.
      * apply Hq3; lia.
  - destruct (pp s); auto; rewrite app_nth1 by lia; auto.
Qed.

(* consumer: load of write_index_ *)
Lemma inv_cload n s rcs i o : Inv n s rcs -> cp s = CLd o -> readable (cview s) i (whist s) = true ->
  Inv n (c_load s i (i mod n) i) rcs /\ nth i (whist s) (0,0) = (i mod n, i) /\
  length (returned (trace s)) <= i /\ i <= length (accepted (trace s)).
Proof.
  intros H Hc Hr. unfold readable in Hr. apply andb_prop in Hr. destruct Hr as [Hr1 Hr2].
  apply Nat.leb_le in Hr1. apply Nat.ltb_lt in Hr2. rewrite (whist_len _ _ _ H) in Hr2.
  rewrite (whist_nth _ _ _ _ H) by lia. pose proof (i_rc _ _ _ H). split; [|repeat split; lia].
  destruct H; constructor; simpl_st; auto; try lia. rewrite Hc. exact I.
Qed.

Lemma inv_set_cp n s rcs c : Inv n s rcs -> moved (cp s) = moved c ->
  match c with
  | CIdle | CLd _ => True
  | CPopMv r => r = length (returned (trace s)) mod n /\ length (returned (trace s)) < cview s
  | CInto r cnt k out => r = length (returned (trace s)) mod n /\ k <= cnt /\
       length (returned (trace s)) + cnt <= cview s /\
       out = map Some (firstn k (skipn (length (returned (trace s))) (accepted (trace s))))
  | CPopSt _ _ => False
  end -> Inv n (set_cp s c) rcs.
Proof. intros H Hm Hc. destruct H; constructor; simpl_st; rewrite <- ?Hm; auto.
  destruct c; auto; contradiction. Qed.

Lemma inv_emit n s rcs e : Inv n s rcs -> accepted [e] = [] -> returned [e] = [] -> Inv n (emit s e) rcs.
Proof. intros H Ha Hr.
  assert (EA : accepted (trace s ++ [e]) = accepted (trace s)) by (rewrite accepted_app, Ha, app_nil_r; reflexivity).
  assert (ER : returned (trace s ++ [e]) = returned (trace s)) by (rewrite returned_app, Hr, app_nil_r; reflexivity).
  destruct H; constructor; simpl_st; rewrite ?EA, ?ER; auto. Qed.

(* consumer: moving the next element out *)
Lemma inv_cmove n s rcs c j q : Inv n s rcs ->
  q = length (returned (trace s)) + moved (cp s) -> j = q mod n -> q < cview s ->
  moved c = S (moved (cp s)) ->
  (forall v, nth_error (accepted (trace s)) q = Some v -> slot s j = Some v ->
   match c with
   | CIdle | CLd _ | CPopMv _ => False
   | CPopSt r x => r = length (returned (trace s)) mod n /\ length (returned (trace s)) < cview s
                          /\ exists v, x = Some v /\ nth_error (accepted (trace s)) (length (returned (trace s))) = Some v
   | CInto r cnt k out => r = length (returned (trace s)) mod n /\ k <= cnt /\
       length (returned (trace s)) + cnt <= cview s /\
       out = map Some (firstn k (skipn (length (returned (trace s))) (accepted (trace s))))
   end) -> Inv n (set_cp (c_access s j) c) rcs.
Proof.
  intros H Hq Hj Hlt Hm Hc. pose proof (i_pos _ _ _ H) as Hn. pose proof (i_cview _ _ _ H) as Hcv.
  pose proof (full_room _ _ _ H) as HF.
  assert (Hsl : slot s j = nth_error (accepted (trace s)) q).
  { rewrite Hj. apply (i_slots _ _ _ H); lia. }
  destruct (nth_error (accepted (trace s)) q) as [v|] eqn:Hv.
  2:{ apply nth_error_None in Hv. lia. }
  specialize (Hc v eq_refl Hsl).
  assert (Hjn : j < n) by (subst j; apply Nat.mod_upper_bound; lia).
  assert (HqR : length (returned (trace s)) <= q) by lia.
  destruct H; constructor; simpl_st; auto.
  - intros k Hk1 Hk2. rewrite upd_other; [apply i_slots0; lia|].
    intros E. rewrite Hj in E. symmetry in E. pose proof (mod_lt_sep n q k Hn E ltac:(lia)). lia.
  - intros x Hx. destruct (Nat.eq_dec x j) as [->|Hne].
    + right. exists q. rewrite upd_same. repeat split; auto; try lia.
    + rewrite upd_other by exact Hne. destruct (i_slotC0 x Hx) as [E0|(q' & Hq1 & Hq2 & Hq3)]; [left; exact E0|].
      right. exists q'. repeat split; auto. lia.
  - destruct c; try contradiction; auto.
  - destruct (pp s) as [| | |v0 next] eqn:Hp; auto.
    destruct i_ppc0 as (H1 & H2 & H3 & H4). repeat split; auto.
    rewrite upd_other; [exact H3|]. intros E. rewrite Hj in E. symmetry in E.
    assert (Hle : nth (pview s) rcs 0 <= length (returned (trace s))).
    { rewrite <- i_rlast0. apply i_rmono0; lia. }
    pose proof (mod_lt_sep n q _ Hn E ltac:(lia)). lia.
  - rewrite i_raced0, i_cknows0. cbn [orb]. apply Nat.ltb_ge. rewrite Hj, i_slotP0 by lia. lia.
  - rewrite i_oob0, i_max0. cbn [orb]. apply Nat.leb_gt. lia.
Qed.

Lemma inv_cstep n s rcs i s' : Inv n s rcs -> cstep s i = Some s' ->
  Inv n s' rcs \/ exists c, Inv n s' (rcs ++ [c]) /\ length (returned (trace s')) = c.
Proof.
  intros H E. unfold cstep in E. pose proof (i_pos _ _ _ H) as Hn. pose proof (full_room _ _ _ H) as HF.
  pose proof (i_cview _ _ _ H) as Hcv.
  destruct (cp s) as [|o|r|r x|r cnt k out] eqn:Hc; [discriminate| | | |].
  - destruct (readable (cview s) i (whist s)) eqn:Hr; [|discriminate].
    destruct (inv_cload _ _ _ _ _ H Hc Hr) as (HI & Hnth & Hi1 & Hi2).
    rewrite Hnth in E. rewrite (latest_r _ _ _ H) in E. rewrite (i_max _ _ _ H) in E. left.
    destruct o as [|mc|].
    + destruct (Nat.eqb_spec (i mod n) (length (returned (trace s)) mod n)) as [Heq|Hne]; injection E as <-.
      * apply inv_emit; auto. apply inv_set_cp; auto. cbn. rewrite Hc. reflexivity.
      * apply inv_set_cp; auto; cbn. { rewrite Hc. reflexivity. }
        split; [reflexivity|]. destruct (Nat.eq_dec i (length (returned (trace s)))); [congruence|lia].
    + injection E as <-. apply inv_set_cp; auto; cbn. { rewrite Hc. reflexivity. }
      rewrite available_mod by lia. split; [reflexivity|]. repeat split; lia.
    + injection E as <-. apply inv_emit; auto. apply inv_set_cp; auto. cbn. rewrite Hc. reflexivity.
  - injection E as <-. left. pose proof (i_cpc _ _ _ H) as Hpc. rewrite Hc in Hpc. destruct Hpc as [Hr Hlt].
    apply (inv_cmove _ _ _ _ _ (length (returned (trace s))) H); rewrite ?Hc; cbn [moved]; auto; try lia.
    intros v Hv Hs. repeat split; auto. exists v. split; auto.
  - injection E as <-. right. pose proof (i_cpc _ _ _ H) as Hpc. rewrite Hc in Hpc. destruct Hpc as (Hr & Hlt & v & Hx & Hv).
    exists (length (returned (trace s)) + 1).
    replace ((r + 1) mod maxs s) with ((length (returned (trace s)) + 1) mod n)
      by (rewrite (i_max _ _ _ H), Hr, Nat.add_mod_idemp_l by lia; reflexivity).
    split.
    + apply inv_cstore; auto; try lia.
      * rewrite Hc. reflexivity.
      * cbn [returned]. subst x.
        replace (firstn 1 (skipn (length (returned (trace s))) (accepted (trace s)))) with [v]; [reflexivity|].
        rewrite (firstn_snoc _ 0 v); [reflexivity|]. rewrite nth_error_skipn', Nat.add_0_r. exact Hv.
    + cbn [emit set_cp c_store trace]. rewrite returned_app, app_length. reflexivity.
  - pose proof (i_cpc _ _ _ H) as Hpc. rewrite Hc in Hpc. destruct Hpc as (Hr & Hk & Hlt & Hout).
    destruct (Nat.ltb_spec k cnt) as [Hkc|Hkc]; injection E as <-.
    + left. apply (inv_cmove _ _ _ _ _ (length (returned (trace s)) + k) H); rewrite ?Hc; cbn [moved]; auto; try lia.
      * rewrite (i_max _ _ _ H), Hr, Nat.add_mod_idemp_l by lia. reflexivity.
      * intros v Hv Hs. rewrite Hs. repeat split; auto; try lia.
        rewrite (firstn_snoc _ k v), map_app, Hout; [reflexivity|].
        rewrite nth_error_skipn'. exact Hv.
    + right. assert (k = cnt) by lia. subst k. exists (length (returned (trace s)) + cnt).
      replace ((r + cnt) mod maxs s) with ((length (returned (trace s)) + cnt) mod n)
        by (rewrite (i_max _ _ _ H), Hr, Nat.add_mod_idemp_l by lia; reflexivity).
      split.
      * apply inv_cstore; auto; try lia.
        -- rewrite Hc. reflexivity.
        -- cbn [returned]. rewrite app_nil_r. exact Hout.
      * cbn [emit set_cp c_store trace]. rewrite returned_app, app_length. cbn [returned].
        rewrite app_nil_r, Hout, map_length, firstn_length, skipn_length. lia.
Qed.

(* every released count is the number of values returned at some earlier moment *)
Definition Moments s (rcs : list nat) : Prop :=
  forall i, i < length rcs -> exists a b, trace s = a ++ b /\ length (returned a) = nth i rcs 0.

Lemma step_trace s a s' : step s a = Some s' -> trace s' = trace s \/ exists e, trace s' = trace s ++ [e].
Proof.
  intros E. destruct a as [v|i|o|i]; cbn [step] in E.
  - destruct (pp s); try discriminate. injection E as <-. right. eexists. reflexivity.
  - unfold pstep in E. destruct (pp s); try discriminate.
    + destruct (readable _ _ _); try discriminate. destruct (nth _ _ _).
      destruct (_ =? _); injection E as <-; [right|left]; cbn; eauto.
    + injection E as <-. left; reflexivity.
    + injection E as <-. right. cbn; eauto.
  - destruct (cp s); try discriminate. injection E as <-. right. eexists. reflexivity.
  - unfold cstep in E. destruct (cp s) as [|o|r|r x|r cnt k out]; try discriminate.
    + destruct (readable _ _ _); try discriminate. destruct (nth _ _ _).
      destruct o; [destruct (_ =? _)| |]; injection E as <-; cbn; eauto.
    + injection E as <-. left; reflexivity.
    + injection E as <-. right; cbn; eauto.
    + destruct (_ <? _); injection E as <-; cbn; eauto.
Qed.

Lemma step_inv n s rcs a s' : Inv n s rcs -> Moments s rcs -> step s a = Some s' ->
  exists rcs', Inv n s' rcs' /\ Moments s' rcs'.
Proof.
  intros H HM E. destruct (step_trace _ _ _ E) as [Et|[e Et]].
  all: assert (HM' : Moments s' rcs) by
    (intros i Hi; destruct (HM i Hi) as (x & y & H1 & H2); exists x; eexists;
     rewrite Et, H1, <- ?app_assoc; split; [reflexivity|exact H2]).
  all: destruct a as [v|i|o|i]; cbn [step] in E.
  all: try (exists rcs; split; [|exact HM']; eapply inv_pstep; eassumption).
  all: try (destruct (inv_cstep _ _ _ _ _ H E) as [H'|(c & H' & Hlen)];
    [ exists rcs; split; assumption
    | exists (rcs ++ [c]); split; [exact H'|];
      intros j Hj; rewrite app_length in Hj; cbn [length] in Hj;
      destruct (Nat.eq_dec j (length rcs)) as [->|Hne];
      [ exists (trace s'), []; rewrite app_nil_r; split; [reflexivity|];
        rewrite app_nth2, Nat.sub_diag by lia; exact Hlen
      | rewrite app_nth1 by lia; apply HM'; lia ]]).
  all: try (destruct (pp s) eqn:Hp; try discriminate; injection E as <-;
      exists rcs; split; [apply inv_push; assumption | exact HM']).
  all: try (destruct (cp s) eqn:Hp; try discriminate; injection E as <-;
      exists rcs; split; [apply inv_ccall; assumption | exact HM']).
Qed.

Lemma run_snoc s sched a : run s (sched ++ [a]) =
  match step (run s sched) a with Some s' => s' | None => run s sched end.
Proof. revert s; induction sched as [|b sched IH]; intros s; cbn; auto. Qed.

Lemma run_app s (s1 s2 : list (action A)) : run s (s1 ++ s2) = run (run s s1) s2.
Proof. revert s; induction s1 as [|b s1 IH]; intros s; cbn; auto. Qed.

Lemma run_inv n s0 sched : init n = Some s0 -> exists rcs, Inv n (run s0 sched) rcs /\ Moments (run s0 sched) rcs.
Proof.
  intros Hi. induction sched as [|a sched IH] using rev_ind.
  - exists [0]. split; [apply init_inv; assumption|]. intros i Hlt. destruct i; [|cbn in Hlt; lia].
    exists [], (trace s0). split; [reflexivity|]. reflexivity.
  - destruct IH as (rcs & H & HM). rewrite run_snoc. destruct (step (run s0 sched) a) as [s'|] eqn:E.
    + eapply step_inv; eassumption.
    + exists rcs; split; assumption.
Qed.

(* the step that emitted a given event of the trace *)
Lemma emitted n s0 sched tr1 e tr2 : init n = Some s0 -> trace (run s0 sched) = tr1 ++ e :: tr2 ->
  exists sched1 a sched2 s', sched = sched1 ++ a :: sched2 /\ trace (run s0 sched1) = tr1 /\
    step (run s0 sched1) a = Some s' /\ trace s' = tr1 ++ [e].
Proof.
  intros Hi. revert tr2. induction sched as [|a sched IH] using rev_ind; intros tr2 Ht.
  - cbn in Ht. unfold init in Hi. destruct (n =? 0); [discriminate|]. injection Hi as <-. cbn in Ht.
    destruct tr1; discriminate.
  - rewrite run_snoc in Ht. destruct (step (run s0 sched) a) as [s'|] eqn:E.
    + destruct (step_trace _ _ _ E) as [Et|[e' Et]].
      * rewrite Et in Ht. destruct (IH _ Ht) as (x & b & y & s'' & H1 & H2). exists x, b, (y ++ [a]), s''.
        rewrite H1, <- app_assoc. split; [reflexivity|exact H2].
      * rewrite Et in Ht. destruct tr2 as [|e2 tr2] using rev_ind.
        -- apply app_inj_tail in Ht. destruct Ht as [Ht ->]. exists sched, a, [], s'. repeat split; auto. rewrite Et, Ht. reflexivity.
        -- clear IHtr2. rewrite app_comm_cons, app_assoc in Ht. apply app_inj_tail in Ht. destruct Ht as [Ht _].
           destruct (IH _ Ht) as (x & b & y & s'' & H1 & H2). exists x, b, (y ++ [a]), s''.
           rewrite H1, <- app_assoc. split; [reflexivity|exact H2].
    + destruct (IH _ Ht) as (x & b & y & s'' & H1 & H2). exists x, b, (y ++ [a]), s''.
      rewrite H1, <- app_assoc. split; [reflexivity|exact H2].
Qed.

Theorem fifo n s0 sched : init n = Some s0 -> exists rest,
  map Some (accepted (trace (run s0 sched))) = returned (trace (run s0 sched)) ++ map Some rest /\ length rest <= n - 1.
Proof.
  intros Hi. destruct (run_inv n s0 sched Hi) as (rcs & H & _).
  exists (skipn (length (returned (trace (run s0 sched)))) (accepted (trace (run s0 sched)))). split.
  - rewrite (i_vals _ _ _ H) at 1. rewrite <- map_app, firstn_skipn. reflexivity.
  - rewrite skipn_length. pose proof (full_room _ _ _ H). lia.
Qed.

Theorem no_race n s0 sched : init n = Some s0 -> raced (run s0 sched) = false /\ oob (run s0 sched) = false.
Proof. intros Hi. destruct (run_inv n s0 sched Hi) as (rcs & H & _). split; [apply (i_raced _ _ _ H)|apply (i_oob _ _ _ H)]. Qed.

Lemma prefix_count tr c : c <= length (accepted tr) -> exists a b, tr = a ++ b /\ length (accepted a) = c.
Proof.
  induction tr as [|e tr IH] using rev_ind; intros Hc.
  - exists [], []. cbn in *. split; [reflexivity|lia].
  - destruct (Nat.eq_dec c (length (accepted (tr ++ [e])))) as [->|Hne].
    + exists (tr ++ [e]), []. rewrite app_nil_r. auto.
    + rewrite accepted_app, app_length in Hc, Hne.
      assert (length (accepted [e]) <= 1) by (destruct e as [|? []| | | |]; cbn; lia).
      destruct IH as (a & b & -> & H2); [lia|]. exists a, (b ++ [e]). rewrite app_assoc. auto.
Qed.

Lemma snoc_inj_nil {B} (l : list B) x : l = l ++ [x] -> False.
Proof. intros E. apply (f_equal (@length B)) in E. rewrite app_length in E. cbn in E. lia. Qed.

(* what the step that emits a return event looked like *)
Lemma step_emit s a s' e : step s a = Some s' -> trace s' = trace s ++ [e] ->
  match e with
  | EPushRet v false => exists i w next, a = AProd i /\ pp s = PChk v w next /\ readable (pview s) i (rhist s) = true
                          /\ next = fst (nth i (rhist s) (0,0))
  | ERetPop None => exists i, a = AStep i /\ cp s = CLd OPop /\ readable (cview s) i (whist s) = true
                          /\ fst (nth i (whist s) (0,0)) = latest (rhist s)
  | ERetSize k => exists i, a = AStep i /\ cp s = CLd OSize /\ readable (cview s) i (whist s) = true
                          /\ k = available (maxs s) (fst (nth i (whist s) (0,0))) (latest (rhist s))
  | ERetInto vs => exists r cnt k, cp s = CInto r cnt k vs /\ cnt <= k
  | _ => True
  end.
Proof.
  intros E Et. destruct a as [v'|i|o|i]; cbn [step] in E.
  - destruct (pp s); try discriminate. injection E as <-. cbn in Et. apply app_inj_tail in Et. destruct Et as [_ <-]. exact I.
  - unfold pstep in E. destruct (pp s) eqn:Hp; try discriminate.
    + destruct (readable _ _ _) eqn:Hr; try discriminate. destruct (nth i (rhist s) (0,0)) eqn:Hn.
      destruct (Nat.eqb_spec next n) as [->|]; injection E as <-; cbn in Et.
      * apply app_inj_tail in Et. destruct Et as [_ <-]. exists i, w, n. rewrite Hn. auto.
      * exfalso. apply (snoc_inj_nil _ _ Et).
    + injection E as <-. cbn in Et. exfalso. apply (snoc_inj_nil _ _ Et).
    + injection E as <-. cbn in Et. apply app_inj_tail in Et. destruct Et as [_ <-]. exact I.
  - destruct (cp s); try discriminate. injection E as <-. cbn in Et. apply app_inj_tail in Et. destruct Et as [_ <-]. exact I.
  - unfold cstep in E. destruct (cp s) as [|o|r|r x|r cnt k out] eqn:Hc; try discriminate.
    + destruct (readable _ _ _) eqn:Hr; try discriminate. destruct (nth i (whist s) (0,0)) eqn:Hn.
      destruct o; [destruct (Nat.eqb_spec n (latest (rhist s))) as [->|]| |]; injection E as <-; cbn in Et;
      try (apply app_inj_tail in Et; destruct Et as [_ <-]; exists i; rewrite Hn; auto); exfalso; apply (snoc_inj_nil _ _ Et).
    + injection E as <-. cbn in Et. exfalso; apply (snoc_inj_nil _ _ Et).
    + injection E as <-. cbn in Et. apply app_inj_tail in Et. destruct Et as [_ <-]. exact I.
    + destruct (Nat.ltb_spec k cnt); injection E as <-; cbn in Et.
      * exfalso; apply (snoc_inj_nil _ _ Et).
      * apply app_inj_tail in Et. destruct Et as [_ <-]. eauto.
Qed.

Theorem push_false_full n s0 sched v tr1 tr2 : init n = Some s0 ->
  trace (run s0 sched) = tr1 ++ EPushRet v false :: tr2 ->
  exists a b, tr1 = a ++ b /\ length (accepted tr1) = length (returned a) + (n - 1) /\
    (sc s0 sched -> held tr1 = n - 1).
Proof.
  intros Hi Ht. destruct (emitted _ _ _ _ _ _ Hi Ht) as (s1 & a & s2 & s' & Hs & Ht1 & Hst & Ht').
  destruct (run_inv n s0 s1 Hi) as (rcs & H & HM).
  rewrite <- Ht1 in Ht'. pose proof (step_emit _ _ _ _ Hst Ht') as (i & w & next & -> & Hp & Hr & Hn).
  set (s := run s0 s1) in *.
  unfold readable in Hr. apply andb_prop in Hr. destruct Hr as [Hr1 Hr2].
  apply Nat.leb_le in Hr1. apply Nat.ltb_lt in Hr2. rewrite <- (i_rlen _ _ _ H) in Hr2.
  pose proof (i_ppc _ _ _ H) as Hpc. rewrite Hp in Hpc. destruct Hpc as [_ Hnext].
  rewrite (i_rhist _ _ _ H) in Hn by lia. cbn [fst] in Hn. rewrite Hnext in Hn.
  pose proof (i_room _ _ _ H) as Hroom. pose proof (i_rmono _ _ _ H _ _ Hr1 Hr2) as Hmono.
  pose proof (i_pos _ _ _ H) as Hpos. pose proof (rc_le _ _ _ _ H Hr2) as Hle. pose proof (ret_le_acc _ _ _ H) as HRW.
  assert (Hcnt : length (accepted (trace s)) = nth i rcs 0 + (n - 1)).
  { symmetry in Hn. pose proof (mod_lt_sep n _ _ Hpos Hn ltac:(lia)). lia. }
  destruct (HM i Hr2) as (x & y & Hxy & Hx).
  exists x, y. rewrite <- Ht1. split; [exact Hxy|]. split; [lia|].
  intros Hsc. rewrite Hs in Hsc.
  assert (Hnew : reads_newest s (AProd i)).
  { clear - Hsc. unfold s. clear s. revert s0 Hsc. induction s1 as [|b s1 IH]; intros s0 Hsc; cbn in Hsc |- *; [tauto|].
    apply IH. tauto. }
  cbn [reads_newest] in Hnew. rewrite Hp in Hnew. rewrite <- (i_rlen _ _ _ H) in Hnew.
  pose proof (i_rlast _ _ _ H) as Hlast. rewrite <- Hnew in Hlast. cbn [Nat.sub] in Hlast. rewrite Nat.sub_0_r in Hlast.
  unfold held. lia.
Qed.

Lemma sc_at s0 (s1 : list (action A)) a (s2 : list (action A)) : sc s0 (s1 ++ a :: s2) -> reads_newest (run s0 s1) a.
Proof. revert s0. induction s1 as [|b s1 IH]; intros s0 Hsc; cbn in Hsc |- *; [tauto|]. apply IH. tauto. Qed.

(* common part of the two consumer loads that return at once *)
Lemma cload_count n s rcs i o : Inv n s rcs -> cp s = CLd o -> readable (cview s) i (whist s) = true ->
  fst (nth i (whist s) (0,0)) = i mod n /\ latest (rhist s) = length (returned (trace s)) mod n /\
  length (returned (trace s)) <= i /\ i <= length (accepted (trace s)) /\ i < length (returned (trace s)) + n.
Proof.
  intros H Hc Hr. destruct (inv_cload _ _ _ _ _ H Hc Hr) as (_ & Hn & H1 & H2). pose proof (full_room _ _ _ H).
  rewrite Hn. cbn [fst]. rewrite (latest_r _ _ _ H). repeat split; lia.
Qed.

Theorem pop_false_empty n s0 sched tr1 tr2 : init n = Some s0 ->
  trace (run s0 sched) = tr1 ++ ERetPop None :: tr2 ->
  exists a b, tr1 = a ++ b /\ length (accepted a) = length (returned tr1) /\
    (sc s0 sched -> held tr1 = 0).
Proof.
  intros Hi Ht. destruct (emitted _ _ _ _ _ _ Hi Ht) as (s1 & a & s2 & s' & Hs & Ht1 & Hst & Ht').
  destruct (run_inv n s0 s1 Hi) as (rcs & H & HM).
  rewrite <- Ht1 in Ht'. pose proof (step_emit _ _ _ _ Hst Ht') as (i & -> & Hc & Hr & Hn).
  set (s := run s0 s1) in *.
  destruct (cload_count _ _ _ _ _ H Hc Hr) as (E1 & E2 & H1 & H2 & H3).
  rewrite E1, E2 in Hn. symmetry in Hn. apply (mod_inj n) in Hn; [|lia|lia].
  rewrite <- Ht1. destruct (prefix_count (trace s) i H2) as (x & y & Hxy & Hx).
  exists x, y. split; [exact Hxy|]. split; [lia|].
  intros Hsc. rewrite Hs in Hsc. apply sc_at in Hsc. fold s in Hsc. cbn [reads_newest] in Hsc.
  rewrite Hc, (whist_len _ _ _ H) in Hsc. unfold held. lia.
Qed.

Theorem size_exact n s0 sched k tr1 tr2 : init n = Some s0 ->
  trace (run s0 sched) = tr1 ++ ERetSize k :: tr2 ->
  exists a b, tr1 = a ++ b /\ length (accepted a) = length (returned tr1) + k /\
    (sc s0 sched -> held tr1 = k).
Proof.
  intros Hi Ht. destruct (emitted _ _ _ _ _ _ Hi Ht) as (s1 & a & s2 & s' & Hs & Ht1 & Hst & Ht').
  destruct (run_inv n s0 s1 Hi) as (rcs & H & HM).
  rewrite <- Ht1 in Ht'. pose proof (step_emit _ _ _ _ Hst Ht') as (i & -> & Hc & Hr & Hn).
  set (s := run s0 s1) in *.
  destruct (cload_count _ _ _ _ _ H Hc Hr) as (E1 & E2 & H1 & H2 & H3).
  rewrite E1, E2, (i_max _ _ _ H), available_mod in Hn by lia.
  rewrite <- Ht1. destruct (prefix_count (trace s) i H2) as (x & y & Hxy & Hx).
  exists x, y. split; [exact Hxy|]. split; [lia|].
  intros Hsc. rewrite Hs in Hsc. apply sc_at in Hsc. fold s in Hsc. cbn [reads_newest] in Hsc.
  rewrite Hc, (whist_len _ _ _ H) in Hsc. unfold held. lia.
Qed.

(* pop_into: remember the moment of the load of write_index_ *)
Definition LoadedAt s (issc : Prop) : Prop :=
  match cp s with
  | CLd o => exists a b, trace s = a ++ ECall o :: b /\ no_consumer b
  | CInto r cnt k out => exists a mc b1 b2 c, trace s = a ++ ECall (OPopInto mc) :: b1 ++ b2 /\
      no_consumer b1 /\ no_consumer b2 /\ length (returned (trace s)) <= c /\
      c <= length (accepted (a ++ ECall (OPopInto mc) :: b1)) /\
      cnt = Nat.min (c - length (returned (trace s))) mc /\
      (issc -> c = length (accepted (a ++ ECall (OPopInto mc) :: b1)))
  | _ => True
  end.

Lemma nc_nil : no_consumer (@nil (event A)).
Proof. intros e []. Qed.
Lemma nc_snoc b e : no_consumer b -> match e with EPushCall _ | EPushRet _ _ => True | _ => False end ->
  no_consumer (b ++ [e] : list (event A)).
Proof. intros H He x Hx. apply in_app_or in Hx. destruct Hx as [Hx|[<-|[]]]; [apply H; exact Hx|exact He]. Qed.

(* adding a producer event, or nothing, to the trace keeps LoadedAt *)
Lemma loaded_prod s s' (P Q : Prop) : (Q -> P) -> cp s' = cp s ->
  (trace s' = trace s \/ exists e, trace s' = trace s ++ [e] /\ match e with EPushCall _ | EPushRet _ _ => True | _ => False end) ->
  LoadedAt s P -> LoadedAt s' Q.
Proof.
  intros HQ Hc Ht H. unfold LoadedAt in *. rewrite Hc.
  assert (HR : returned (trace s') = returned (trace s)).
  { destruct Ht as [->|(e & -> & He)]; [reflexivity|]. apply ret_snoc. destruct e; tauto. }
  destruct (cp s) as [|o|r|r x|r cnt k out]; auto.
  - destruct H as (a & b & H1 & H2). destruct Ht as [->|(e & -> & He)]; [exists a, b; split; assumption|].
    exists a, (b ++ [e]). rewrite H1, <- app_assoc. split; [reflexivity|]. apply nc_snoc; auto.
  - destruct H as (a & mc & b1 & b2 & c & H1 & H2 & H3 & H4 & H5 & H6 & H7). rewrite HR.
    destruct Ht as [->|(e & -> & He)].
    + exists a, mc, b1, b2, c. repeat split; try assumption. intros q; apply H7, HQ, q.
    + exists a, mc, b1, (b2 ++ [e]), c. repeat split; try assumption.
      * rewrite H1. rewrite <- app_assoc. cbn [app]. rewrite <- app_assoc. reflexivity.
      * apply nc_snoc; auto.
      * intros q; apply H7, HQ, q.
Qed.

Lemma loaded_step n s rcs a s' (P Q : Prop) : Inv n s rcs -> (Q -> P /\ reads_newest s a) -> step s a = Some s' ->
  LoadedAt s P -> LoadedAt s' Q.
Proof.
  intros HI HQ E H. destruct a as [v|i|o|i]; cbn [step] in E.
  - destruct (pp s); try discriminate. injection E as <-. apply (loaded_prod s _ P Q); auto; [tauto|].
    right. cbn. eexists; split; [reflexivity|exact I].
  - unfold pstep in E. destruct (pp s); try discriminate.
    + destruct (readable _ _ _); try discriminate. destruct (nth _ _ _). destruct (_ =? _); injection E as <-;
      apply (loaded_prod s _ P Q); auto; try tauto. right. cbn. eexists; split; [reflexivity|exact I].
    + injection E as <-. apply (loaded_prod s _ P Q); auto; tauto.
    + injection E as <-. apply (loaded_prod s _ P Q); auto; try tauto. right. cbn. eexists; split; [reflexivity|exact I].
  - destruct (cp s); try discriminate. injection E as <-. unfold LoadedAt. cbn. exists (trace s), []. split; [reflexivity|apply nc_nil].
  - unfold cstep in E. pose proof (full_room _ _ _ HI) as HF.
    unfold LoadedAt in H. cbn [reads_newest] in HQ.
    destruct (cp s) as [|o|r|r x|r cnt k out] eqn:Hc; try discriminate.
    + destruct (readable (cview s) i (whist s)) eqn:Hr; try discriminate.
      destruct (inv_cload _ _ _ _ _ HI Hc Hr) as (_ & Hn & H1 & H2).
      rewrite Hn, (latest_r _ _ _ HI), (i_max _ _ _ HI) in E.
      destruct o as [|mc|]; [destruct (_ =? _)| |]; injection E as <-; unfold LoadedAt; cbn; auto.
      destruct H as (x & y & H3 & H4). exists x, mc, y, [], i. rewrite app_nil_r, <- H3.
      rewrite available_mod by lia. repeat split; auto using nc_nil.
      intros q. destruct (HQ q) as [_ Hnew]. rewrite (whist_len _ _ _ HI) in Hnew. lia.
    + injection E as <-. exact I.
    + injection E as <-. exact I.
    + destruct (Nat.ltb_spec k cnt); injection E as <-; [|exact I]. unfold LoadedAt; cbn.
      destruct H as (x & mc & b1 & b2 & c & H1 & H2 & H3 & H4 & H5 & H6 & H7).
      exists x, mc, b1, b2, c. repeat split; auto. intros q. apply H7. tauto.
Qed.

Lemma sc_app s0 (s1 s2 : list (action A)) : sc s0 (s1 ++ s2) -> sc s0 s1.
Proof. revert s0. induction s1 as [|b s1 IH]; intros s0 Hsc; cbn in Hsc |- *; [tauto|]. split; [tauto|]. apply IH. tauto. Qed.

Lemma loaded_run n s0 sched : init n = Some s0 -> LoadedAt (run s0 sched) (sc s0 sched).
Proof.
  intros Hi. induction sched as [|a sched IH] using rev_ind.
  - cbn. unfold init in Hi. destruct (n =? 0); [discriminate|]. injection Hi as <-. exact I.
  - destruct (run_inv n s0 sched Hi) as (rcs & H & _). rewrite run_snoc.
    assert (HQ : sc s0 (sched ++ [a]) -> sc s0 sched /\ reads_newest (run s0 sched) a).
    { intros Hsc. split; [eapply sc_app; exact Hsc|eapply sc_at; exact Hsc]. }
    destruct (step (run s0 sched) a) as [s'|] eqn:E.
    + eapply loaded_step; eassumption.
    + apply (loaded_prod (run s0 sched) _ (sc s0 sched)); auto. tauto.
Qed.

Theorem into_count n s0 sched vs tr1 tr2 : init n = Some s0 ->
  trace (run s0 sched) = tr1 ++ ERetInto vs :: tr2 ->
  exists a mc b1 b2, tr1 = a ++ ECall (OPopInto mc) :: b1 ++ b2 /\ no_consumer b1 /\ no_consumer b2 /\
    length vs <= mc /\ (sc s0 sched -> length vs = Nat.min (held (a ++ ECall (OPopInto mc) :: b1)) mc).
Proof.
  intros Hi Ht. destruct (emitted _ _ _ _ _ _ Hi Ht) as (s1 & act & s2 & s' & Hs & Ht1 & Hst & Ht').
  destruct (run_inv n s0 s1 Hi) as (rcs & H & HM). pose proof (loaded_run n s0 s1 Hi) as HL.
  rewrite <- Ht1 in Ht'. pose proof (step_emit _ _ _ _ Hst Ht') as (r & cnt & k & Hc & Hk).
  unfold LoadedAt in HL. rewrite Hc in HL. pose proof (i_cpc _ _ _ H) as Hpc. rewrite Hc in Hpc.
  destruct Hpc as (_ & Hk' & Hlt & Hout).
  destruct HL as (a & mc & b1 & b2 & c & H1 & H2 & H3 & H4 & H5 & H6 & H7).
  pose proof (i_cview _ _ _ H) as Hcv.
  assert (Hlen : length vs = cnt).
  { rewrite Hout, map_length, firstn_length, skipn_length. lia. }
  exists a, mc, b1, b2. rewrite <- Ht1. split; [exact H1|]. split; [exact H2|]. split; [exact H3|]. split; [lia|].
  intros Hsc. rewrite Hs in Hsc. apply sc_app in Hsc. specialize (H7 Hsc). unfold held.
  assert (HR : returned (trace (run s0 s1)) = returned (a ++ ECall (OPopInto mc) :: b1)).
  { rewrite H1, app_comm_cons, app_assoc, returned_app.
    assert (Hb2 : returned b2 = []).
    { clear -H3. induction b2 as [|e b2 IH]; [reflexivity|]. cbn.
      assert (He := H3 e (or_introl eq_refl)). assert (IH' := IH (fun x Hx => H3 x (or_intror Hx))).
      destruct e; tauto. }
    rewrite Hb2, app_nil_r. reflexivity. }
  rewrite <- HR, <- H7. lia.
Qed.
End Proofs.
