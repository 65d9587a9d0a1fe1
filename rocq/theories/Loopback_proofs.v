From Coq Require Import List Arith NArith Ascii Bool Lia.
Import ListNotations.
From Verif Require Import Protocol_model UnixSystem_model UnixSystem_proofs Loopback_model Loopback_spec.

Lemma lrun_app l1 : forall l2 s, lrun (l1 ++ l2) s = match lrun l1 s with LNext s' => lrun l2 s' | r => r end.
Proof. induction l1 as [|l l1 IH]; intros l2 s; cbn; [reflexivity|]. destruct (lstep l s); auto. Qed.

Lemma l_reached_ind (I : lstate -> Prop) : I lo0 -> (forall s l s', l_reached s -> I s -> lstep l s = LNext s' -> I s') ->
  forall s, l_reached s -> I s.
Proof.
  intros H0 HS s (ls & HR). revert s HR. induction ls as [|l ls IH] using rev_ind; intros s HR.
  - cbn in HR. injection HR as <-. exact H0.
  - rewrite lrun_app in HR. destruct (lrun ls lo0) as [s1| |] eqn:E; try discriminate. cbn in HR.
    destruct (lstep l s1) as [s2| |] eqn:E2; try discriminate. injection HR as <-. apply (HS s1 l); auto. now exists ls.
Qed.

(** Requests below [a] have passed, those below [b] have been visited by the current pass. *)
Inductive fate (done : bool) (ex : list (bytes * bytes * option bytes)) (x : lreq) : Prop :=
  | F_skipped : ex = [] -> lr_held x = false -> lr_val x = (if done then LBroken else LUnready) -> fate done ex x
  | F_served ans : ex = [(lr_name x, lr_data x, ans)] ->
      lr_val x = (match ans with Some d => LValue d | None => if done then LBroken else LUnready end) -> fate done ex x.

Record LInv (a b : nat) (s : lstate) : Prop := {
  li_ab : a <= b <= length (lo_reqs s);
  li_queue : lo_queue s = seq a (length (lo_reqs s) - a);
  li_todo : match lo_todo s with None => b = a | Some t => t = seq b (length (lo_reqs s) - b) end;
  li_passed : forall r x, r < a -> nth_error (lo_reqs s) r = Some x -> fate true (executions r s) x;
  li_visited : forall r x, a <= r < b -> nth_error (lo_reqs s) r = Some x -> fate false (executions r s) x;
  li_fresh : forall r x, b <= r -> nth_error (lo_reqs s) r = Some x -> lr_val x = LUnready;
  li_calls : forall r, b <= r -> executions r s = [];
  li_inc : increasing (request_numbers s);
  li_below : forall r, In r (request_numbers s) -> r < b;
}.

Lemma increasing_snoc l x : increasing l -> (forall y, In y l -> y < x) -> increasing (l ++ [x]).
Proof.
  induction l as [|y l IH]; cbn; intros H Hx; [auto|]. destruct H as [H1 H2]. split.
  - destruct l as [|z l]; cbn; [apply Hx; now left|exact H1].
  - apply IH; auto.
Qed.

Lemma break_all_nth q : NoDup q -> forall l r x, nth_error l r = Some x ->
  nth_error (break_all q l) r = Some (if existsb (Nat.eqb r) q then match lr_val x with LUnready => l_with_val LBroken x | _ => x end else x).
Proof.
  unfold break_all. induction 1 as [|y q Hy Hn IH]; intros l r x E; cbn [fold_left existsb]; [exact E|].
  destruct (Nat.eqb_spec r y) as [->|Hne]; cbn [orb].
  - rewrite E. assert (Hq : existsb (Nat.eqb y) q = false).
    { destruct (existsb (Nat.eqb y) q) eqn:X; auto. apply existsb_exists in X. destruct X as (z & Hz & Ez). apply Nat.eqb_eq in Ez. now subst. }
    destruct (lr_val x) eqn:V; try (rewrite (IH l y x E), Hq; reflexivity).
    rewrite (IH _ y (l_with_val LBroken x)) by (apply set_nth_same; eapply nth_error_lt; eauto). now rewrite Hq.
  - destruct (nth_error l y) as [z|] eqn:Ez; [|now apply IH]. destruct (lr_val z); try (now apply IH).
    apply IH. rewrite set_nth_other; auto.
Qed.
Lemma break_all_length q : forall l, length (break_all q l) = length l.
Proof.
  unfold break_all. induction q as [|y q IH]; intros l; cbn [fold_left]; [reflexivity|]. rewrite IH.
  destruct (nth_error l y) as [z|]; [|reflexivity]. destruct (lr_val z); try reflexivity. apply set_nth_length.
Qed.
Lemma break_all_nth_inv q l r x : NoDup q -> nth_error (break_all q l) r = Some x -> exists y, nth_error l r = Some y /\
  x = (if existsb (Nat.eqb r) q then match lr_val y with LUnready => l_with_val LBroken y | _ => y end else y).
Proof.
  intros Hn E. destruct (nth_error l r) as [y|] eqn:Ey.
  - exists y. split; [reflexivity|]. rewrite (break_all_nth q Hn l r y Ey) in E. congruence.
  - exfalso. apply nth_error_None in Ey. apply nth_error_lt in E. rewrite break_all_length in E. lia.
Qed.

Lemma existsb_seq r a n : existsb (Nat.eqb r) (seq a n) = (a <=? r) && (r <? a + n).
Proof.
  destruct (existsb (Nat.eqb r) (seq a n)) eqn:E.
  - apply existsb_exists in E. destruct E as (y & Hy & Ey). apply Nat.eqb_eq in Ey. subst y. apply in_seq in Hy.
    symmetry. apply andb_true_iff. split; [apply Nat.leb_le|apply Nat.ltb_lt]; lia.
  - symmetry. apply andb_false_iff. destruct (Nat.leb_spec a r); [|now left]. right. apply Nat.ltb_ge.
    destruct (Nat.le_gt_cases (a + n) r); auto. exfalso. assert (C : existsb (Nat.eqb r) (seq a n) = true); [|congruence].
    apply existsb_exists. exists r. split; [apply in_seq; lia|apply Nat.eqb_refl].
Qed.

Lemma fate_ext done ex x y : lr_name y = lr_name x -> lr_data y = lr_data x -> (lr_held x = false -> lr_held y = false) -> lr_val y = lr_val x ->
  fate done ex x -> fate done ex y.
Proof.
  intros E1 E2 E3 E4 [H1 H2 H3|ans H1 H2].
  - apply F_skipped; auto. congruence.
  - apply (F_served _ _ _ ans); congruence.
Qed.

Lemma executions_snoc s r c n d a : map (fun e : nat * bytes * bytes * option bytes => (snd (fst (fst e)), snd (fst e), snd e))
   (filter (fun e => fst (fst (fst e)) =? r) (lo_calls s ++ [(c, n, d, a)])) = executions r s ++ (if c =? r then [(n, d, a)] else []).
Proof. unfold executions. rewrite filter_app, map_app. cbn. now destruct (c =? r). Qed.

Theorem LInv_reached s : l_reached s -> exists a b, LInv a b s.
Proof.
  revert s. apply l_reached_ind.
  - exists 0, 0. constructor; cbn; auto; try (intros r x H E; destruct r; discriminate); try contradiction.
  - intros s l s' _ (a & b & [H1 H2 H3 H4 H5 H6 H7 H8 H9]) E. destruct l as [n d|r|n| |ans|]; cbn in E.
    + (* request *) destruct (lo_todo s) eqn:Et; [discriminate|]. injection E as <-. subst b. exists a, a.
      constructor; cbn [lo_reqs lo_queue lo_todo lo_calls]; auto.
      * rewrite app_length. lia.
      * rewrite H2, app_length. cbn. replace (length (lo_reqs s) + 1 - a) with (S (length (lo_reqs s) - a)) by lia.
        rewrite seq_S. do 2 f_equal. lia.
      * intros r x Hr Hx. apply nth_error_snoc in Hx. destruct Hx as [Hx|[-> _]]; [exact (H4 r x Hr Hx)|lia].
      * intros r x Hr. lia.
      * intros r x Hr Hx. apply nth_error_snoc in Hx. destruct Hx as [Hx|[-> <-]]; [exact (H6 r x Hr Hx)|reflexivity].
    + (* drop *) destruct (nth_error (lo_reqs s) r) as [y|] eqn:Ey; [|discriminate]. injection E as <-. exists a, b.
      assert (case : forall r0 x, nth_error (set_nth r {| lr_name := lr_name y; lr_data := lr_data y; lr_held := false; lr_val := lr_val y |} (lo_reqs s)) r0 = Some x ->
          exists x0, nth_error (lo_reqs s) r0 = Some x0 /\ lr_name x = lr_name x0 /\ lr_data x = lr_data x0 /\ (lr_held x0 = false -> lr_held x = false) /\ lr_val x = lr_val x0).
      { intros r0 x Hx. apply set_nth_case in Hx; [|eapply nth_error_lt; eauto]. destruct Hx as [[-> ->]|[_ Hx]]; [exists y|exists x]; cbn; auto 7. }
      constructor; cbn [lo_reqs lo_queue lo_todo lo_calls]; rewrite ?set_nth_length; auto.
      * intros r0 x Hr Hx. destruct (case r0 x Hx) as (x0 & Hx0 & C1 & C2 & C3 & C4). eapply fate_ext; [..|exact (H4 r0 x0 Hr Hx0)]; auto.
      * intros r0 x Hr Hx. destruct (case r0 x Hx) as (x0 & Hx0 & C1 & C2 & C3 & C4). eapply fate_ext; [..|exact (H5 r0 x0 Hr Hx0)]; auto.
      * intros r0 x Hr Hx. destruct (case r0 x Hx) as (x0 & Hx0 & C1 & C2 & C3 & C4). rewrite C4. exact (H6 r0 x0 Hr Hx0).
    + injection E as <-. exists a, b. constructor; auto.
    + (* begin *) destruct (lo_todo s) eqn:Et; [discriminate|]. injection E as <-. subst b. exists a, a. constructor; cbn; auto.
    + (* serve *) destruct (lo_todo s) as [[|r rest]|] eqn:Et; try discriminate.
      destruct (nth_error (lo_reqs s) r) as [y|] eqn:Ey; [|discriminate].
      assert (Hr : r = b /\ rest = seq (S b) (length (lo_reqs s) - S b)).
      { destruct (length (lo_reqs s) - b) as [|k] eqn:Ek; [discriminate|]. cbn in H3. injection H3 as -> ->. split; [reflexivity|].
        f_equal. lia. }
      destruct Hr as [-> ->]. pose proof (nth_error_lt _ _ _ Ey) as Hlt.
      destruct (lr_held y) eqn:Eh; cbn [negb] in E.
      * destruct (mem (lr_name y) (lo_eps s)); [|discriminate]. injection E as <-. exists a, (S b).
        set (v := match ans with Some d => LValue d | None => lr_val y end). fold v.
        assert (EX : forall r0, executions r0 {| lo_eps := lo_eps s; lo_reqs := set_nth b (l_with_val v y) (lo_reqs s); lo_queue := lo_queue s;
            lo_todo := Some (seq (S b) (length (lo_reqs s) - S b)); lo_calls := lo_calls s ++ [(b, lr_name y, lr_data y, ans)] |} =
             executions r0 s ++ (if b =? r0 then [(lr_name y, lr_data y, ans)] else [])) by (intros r0; apply executions_snoc).
        constructor; cbn [lo_reqs lo_queue lo_todo lo_calls]; rewrite ?set_nth_length; auto; try lia.
        -- intros r0 x Hr0 Hx. rewrite EX. destruct (Nat.eqb_spec b r0); [lia|]. rewrite app_nil_r.
           rewrite set_nth_other in Hx by auto. eauto.
        -- intros r0 x Hr0 Hx. rewrite EX. destruct (Nat.eqb_spec b r0) as [<-|Hn].
           ++ rewrite set_nth_same in Hx by exact Hlt. injection Hx as <-. rewrite (H7 b (le_n _)). cbn.
              apply (F_served _ _ _ ans); [reflexivity|]. cbn. subst v. destruct ans; [reflexivity|]. exact (H6 b y (le_n _) Ey).
           ++ rewrite app_nil_r. rewrite set_nth_other in Hx by auto. apply H5; auto. lia.
        -- intros r0 x Hr0 Hx. rewrite set_nth_other in Hx by lia. apply (H6 r0); auto. lia.
        -- intros r0 Hr0. rewrite EX. destruct (Nat.eqb_spec b r0); [lia|]. rewrite app_nil_r. apply H7. lia.
        -- unfold request_numbers. cbn. rewrite map_app. cbn. apply increasing_snoc; auto.
        -- unfold request_numbers. cbn. rewrite map_app. intros r0 Hin. apply in_app_or in Hin. cbn in Hin. destruct Hin as [Hin|[<-|[]]]; [|lia].
           specialize (H9 r0 Hin). lia.
      * injection E as <-. exists a, (S b).
        constructor; cbn [lo_reqs lo_queue lo_todo lo_calls]; auto; try lia.
        -- intros r0 x Hr0 Hx. destruct (Nat.eq_dec r0 b) as [->|Hn]; [|apply H5; auto; lia].
           rewrite Ey in Hx. injection Hx as <-. apply F_skipped; [exact (H7 b (le_n _))|exact Eh|exact (H6 b y (le_n _) Ey)].
        -- intros r0 x Hr0. apply H6. lia.
        -- intros r0 Hr0. apply H7. lia.
        -- intros r0 Hin. specialize (H9 r0 Hin). lia.
    + (* end *) destruct (lo_todo s) as [[|]|] eqn:Et; try discriminate. injection E as <-.
      assert (Hb : b = length (lo_reqs s)) by (destruct (length (lo_reqs s) - b) eqn:Ek; [lia|discriminate]).
      exists b, b. assert (Hn : NoDup (lo_queue s)) by (rewrite H2; apply seq_NoDup).
      constructor; cbn [lo_reqs lo_queue lo_todo lo_calls]; rewrite ?break_all_length; auto; try lia.
      * intros r x Hr Hx. apply break_all_nth_inv in Hx; [|exact Hn]. destruct Hx as (y & Hy & Ex).
        rewrite H2, existsb_seq in Ex.
        destruct (Nat.leb_spec a r) as [Ha|Ha]; cbn [andb] in Ex.
        -- replace (r <? a + (length (lo_reqs s) - a)) with true in Ex by (symmetry; apply Nat.ltb_lt; lia).
           change (fate true (executions r s) x).
           destruct (H5 r y (conj Ha Hr) Hy) as [C1 C2 C3|ans C1 C2].
           ++ rewrite C3 in Ex. subst x. apply F_skipped; auto.
           ++ apply (F_served _ _ _ ans); subst x; rewrite C2; destruct ans; auto.
        -- subst x. exact (H4 r y Ha Hy).
      * intros r x Hr Hx. apply nth_error_lt in Hx. rewrite break_all_length in Hx. lia.
Qed.

(** What becomes of a request. *)
Theorem request_outcome s r x : l_reached s -> nth_error (lo_reqs s) r = Some x -> passed s r ->
  (executions r s = [] /\ lr_held x = false) \/
  exists ans, executions r s = [(lr_name x, lr_data x, ans)] /\ lr_val x = match ans with Some d => LValue d | None => LBroken end.
Proof.
  intros HR Hx [Hlt Hq]. destruct (LInv_reached s HR) as (a & b & [H1 H2 H3 H4 H5 H6 H7 H8 H9]).
  assert (Hr : r < a). { destruct (Nat.lt_ge_cases r a) as [C|C]; auto. exfalso. apply Hq. rewrite H2. apply in_seq. lia. }
  destruct (H4 r x Hr Hx) as [C1 C2 C3|ans C1 C2]; [now left|right]. exists ans. auto.
Qed.

(** At any time: a value in the future is the answer of the endpoint to this request. *)
Theorem value_is_answer s r x d : l_reached s -> nth_error (lo_reqs s) r = Some x -> lr_val x = LValue d ->
  executions r s = [(lr_name x, lr_data x, Some d)].
Proof.
  intros HR Hx V. destruct (LInv_reached s HR) as (a & b & [H1 H2 H3 H4 H5 H6 H7 H8 H9]).
  destruct (Nat.lt_ge_cases r a) as [C|C]; [|destruct (Nat.lt_ge_cases r b) as [D|D]].
  - destruct (H4 r x C Hx) as [C1 C2 C3|[d'|] C1 C2]; congruence.
  - destruct (H5 r x (conj C D) Hx) as [C1 C2 C3|[d'|] C1 C2]; congruence.
  - rewrite (H6 r x D Hx) in V. discriminate.
Qed.

Theorem served_in_order s : l_reached s -> increasing (request_numbers s).
Proof. intros HR. destruct (LInv_reached s HR) as (a & b & H). apply (li_inc _ _ _ H). Qed.

(** A request whose future is released is not executed any more. *)
Theorem abandoned_not_executed ls : forall s s' r x, nth_error (lo_reqs s) r = Some x -> lr_held x = false ->
  lrun ls s = LNext s' -> executions r s' = executions r s.
Proof.
  induction ls as [|l ls IH]; intros s s' r x Hx Hh E; cbn in E; [now injection E as <-|].
  destruct (lstep l s) as [s1| |] eqn:E1; try discriminate.
  assert (HH : executions r s1 = executions r s /\ exists x1, nth_error (lo_reqs s1) r = Some x1 /\ lr_held x1 = false).
  { clear IH E. destruct l as [n d|r'|n| |ans|]; cbn in E1.
    - destruct (lo_todo s); [discriminate|]. injection E1 as <-. split; [reflexivity|]. exists x. cbn. rewrite nth_error_app1; [auto|eapply nth_error_lt; eauto].
    - destruct (nth_error (lo_reqs s) r') as [y|] eqn:Ey; [|discriminate]. injection E1 as <-. split; [reflexivity|]. cbn.
      destruct (Nat.eq_dec r r') as [->|Hn].
      + eexists. rewrite set_nth_same by (eapply nth_error_lt; eauto). split; reflexivity.
      + exists x. rewrite set_nth_other by auto. auto.
    - injection E1 as <-. eauto.
    - destruct (lo_todo s); [discriminate|]. injection E1 as <-. eauto.
    - destruct (lo_todo s) as [[|r0 rest]|]; try discriminate. destruct (nth_error (lo_reqs s) r0) as [y|] eqn:Ey; [|discriminate].
      destruct (lr_held y) eqn:Eh; cbn [negb] in E1.
      + destruct (mem (lr_name y) (lo_eps s)); [|discriminate]. injection E1 as <-.
        assert (r <> r0) by (intros ->; congruence). split.
        * unfold executions at 1. cbn [lo_calls]. rewrite executions_snoc. destruct (Nat.eqb_spec r0 r); [congruence|]. apply app_nil_r.
        * exists x. cbn. rewrite set_nth_other by auto. auto.
      + injection E1 as <-. eauto.
    - destruct (lo_todo s) as [[|]|]; try discriminate. injection E1 as <-. split; [reflexivity|]. cbn. clear -Hx Hh.
      assert (HH : forall q l x, nth_error l r = Some x -> lr_held x = false -> exists x1, nth_error (break_all q l) r = Some x1 /\ lr_held x1 = false).
      { unfold break_all. induction q as [|y q IH]; intros l z Hz Hzh; cbn [fold_left]; [eauto|].
        destruct (nth_error l y) as [w|] eqn:Ew; [|eauto]. destruct (lr_val w); eauto. destruct (Nat.eq_dec r y) as [->|Hn].
        - rewrite Hz in Ew. injection Ew as <-. apply (IH _ (l_with_val LBroken z)); auto. apply set_nth_same. eapply nth_error_lt; eauto.
        - apply (IH _ z); auto. rewrite set_nth_other; auto. }
      eauto. }
  destruct HH as [<- (x1 & Hx1 & Hh1)]. eauto.
Qed.

(** After a pass nothing is pending, and every request made before has its outcome. *)
Theorem pass_end_empty s s' : l_reached s -> lstep LEnd s = LNext s' -> l_pending s' = 0 /\ forall r, r < length (lo_reqs s') -> passed s' r.
Proof.
  intros _ E. cbn in E. destruct (lo_todo s) as [[|]|]; try discriminate. injection E as <-. split; [reflexivity|].
  intros r Hr. split; [exact Hr|]. cbn. auto.
Qed.

(** A pass runs to its end when the endpoints asked for exist. *)
Definition known_eps (s : lstate) : Prop := forall r x, nth_error (lo_reqs s) r = Some x -> lr_held x = true -> mem (lr_name x) (lo_eps s) = true.

Theorem pass_completes s : l_reached s -> lo_todo s = None -> known_eps s -> forall ans,
  exists s', lrun (LBegin :: repeat (LServe ans) (l_pending s) ++ [LEnd]) s = LNext s' /\ l_pending s' = 0 /\ length (lo_reqs s') = length (lo_reqs s).
Proof.
  intros HR Ht HK ans. destruct (LInv_reached s HR) as (a & b & [H1 H2 H3 H4 H5 H6 H7 H8 H9]). rewrite Ht in H3. subst b.
  cbn [lrun lstep]. rewrite Ht. rewrite lrun_app. unfold l_pending. rewrite H2, seq_length.
  set (s1 := {| lo_eps := lo_eps s; lo_reqs := lo_reqs s; lo_queue := seq a (length (lo_reqs s) - a); lo_todo := Some (seq a (length (lo_reqs s) - a)); lo_calls := lo_calls s |}).
  assert (go : forall n b s1, lo_todo s1 = Some (seq b n) -> b + n = length (lo_reqs s1) -> known_eps s1 ->
     exists s2, lrun (repeat (LServe ans) n) s1 = LNext s2 /\ lo_todo s2 = Some [] /\ length (lo_reqs s2) = length (lo_reqs s1)).
  { clear. induction n as [|n IH]; intros b s1 Ht Hl HK; cbn [repeat lrun].
    - exists s1. auto.
    - cbn [lstep]. rewrite Ht. cbn [seq]. destruct (nth_error (lo_reqs s1) b) as [y|] eqn:Ey; [|apply nth_error_None in Ey; lia].
      destruct (lr_held y) eqn:Eh; cbn [negb].
      + rewrite (HK b y Ey Eh). match goal with |- context [lrun _ ?t] => destruct (IH (S b) t) as (s2 & R1 & R2 & R3) end; cbn; rewrite ?set_nth_length; try lia; auto.
        * intros r x Hx Hh. cbn in Hx, Hh |- *. apply set_nth_case in Hx; [|eapply nth_error_lt; eauto].
          destruct Hx as [[-> ->]|[_ Hx]]; [apply (HK b y Ey Eh)|eapply HK; eauto].
        * exists s2. rewrite R3. cbn. rewrite set_nth_length. auto.
      + match goal with |- context [lrun _ ?t] => destruct (IH (S b) t) as (s2 & R1 & R2 & R3) end; cbn; try lia; auto.
        exists s2. rewrite R3. cbn. auto. }
  destruct (go (length (lo_reqs s) - a) a s1) as (s2 & R1 & R2 & R3); [reflexivity|cbn; lia|exact HK|].
  rewrite R1. cbn [lrun lstep]. rewrite R2. eexists. split; [reflexivity|]. split; [reflexivity|]. cbn. rewrite break_all_length. exact R3.
Qed.

(** A held request to an endpoint the server does not have is undefined behaviour as soon as it is served. *)
Theorem unknown_endpoint_ub s r rest x ans : lo_todo s = Some (r :: rest) -> nth_error (lo_reqs s) r = Some x ->
  lr_held x = true -> mem (lr_name x) (lo_eps s) = false -> lstep (LServe ans) s = LUB.
Proof. intros H1 H2 H3 H4. cbn. now rewrite H1, H2, H3, H4. Qed.

(** ... and that is the only way to undefined behaviour. *)
Theorem ub_only_unknown s l : lstep l s = LUB -> exists r rest x, lo_todo s = Some (r :: rest) /\ nth_error (lo_reqs s) r = Some x /\
  lr_held x = true /\ mem (lr_name x) (lo_eps s) = false.
Proof.
  destruct l as [n d|r'|n| |ans|]; cbn; try (destruct (lo_todo s) as [[|]|]; discriminate).
  - destruct (nth_error (lo_reqs s) r'); discriminate.
  - destruct (lo_todo s) as [[|r rest]|] eqn:Et; try discriminate. destruct (nth_error (lo_reqs s) r) as [x|] eqn:Ex; [|discriminate].
    destruct (lr_held x) eqn:Eh; cbn; [|discriminate]. destruct (mem (lr_name x) (lo_eps s)) eqn:Em; [discriminate|]. intros _. exists r, rest, x. auto.
Qed.

(** ** Broadcasts *)
Section B.
Variable answer : nat -> bytes -> bytes -> option bytes.
Variable server_handle : bytes -> bytes -> option bytes.

Lemma got_app i a b : got i (a ++ b) = got i a ++ got i b.
Proof. unfold got. now rewrite filter_app, map_app. Qed.

Lemma to_clients_got seps n d cs : forall k log log', to_clients answer server_handle seps n d k cs log = BNext log' ->
  forall i, got i log' = got i log ++ (if (k <=? i) && (i <? k + length cs) &&
     match nth_error cs (i - k) with Some c => lc_alive c && mem n (lc_eps c) | None => false end then [(n, d)] else []).
Proof.
  induction cs as [|c cs IH]; intros k log log' E i; cbn [to_clients] in E.
  - injection E as <-. rewrite <- (app_nil_r (got i log)) at 1. f_equal. destruct (i - k); cbn; now rewrite andb_false_r.
  - assert (tail : forall log0, to_clients answer server_handle seps n d (S k) cs log0 = BNext log' ->
       got i log' = got i log0 ++ (if (k <? i) && (i <? k + length (c :: cs)) &&
         match nth_error (c :: cs) (i - k) with Some c => lc_alive c && mem n (lc_eps c) | None => false end then [(n, d)] else [])).
    { intros log0 E0. rewrite (IH _ _ _ E0 i). f_equal. cbn [length]. replace (S k + length cs) with (k + S (length cs)) by lia.
      change (S k <=? i) with (k <? i). destruct (Nat.ltb_spec k i) as [Hlt|]; [|reflexivity]. cbn [andb].
      replace (i - k) with (S (i - S k)) by lia. reflexivity. }
    destruct (lc_alive c && mem n (lc_eps c)) eqn:Ec.
    + assert (E' : to_clients answer server_handle seps n d (S k) cs (log ++ [(k, n, d)]) = BNext log').
      { destruct (answer k n d) as [r|]; [|exact E]. destruct (mem n seps); [|discriminate]. destruct (server_handle n r); [discriminate|exact E]. }
      rewrite (tail _ E'), got_app, <- app_assoc. f_equal. unfold got at 1. cbn [filter map fst snd].
      destruct (Nat.eqb_spec k i) as [->|Hn].
      * rewrite Nat.ltb_irrefl, Nat.leb_refl, Nat.sub_diag. cbn [andb nth_error app map]. rewrite Ec.
        replace (i <? i + length (c :: cs)) with true by (symmetry; apply Nat.ltb_lt; cbn; lia). reflexivity.
      * cbn [map app]. destruct (Nat.ltb_spec k i), (Nat.leb_spec k i); try lia; reflexivity.
    + rewrite (tail _ E). f_equal. destruct (Nat.ltb_spec k i), (Nat.leb_spec k i); try lia; try reflexivity.
      assert (i = k) by lia. subst i. rewrite Nat.sub_diag. cbn [andb nth_error]. rewrite Ec, andb_false_r. reflexivity.
Qed.

(** Every live client gets each queued broadcast for which it has an endpoint exactly once, last made first. *)
Theorem broadcasts_got seps cs rq : forall log log', broadcasts answer server_handle seps cs rq log = BNext log' ->
  forall i c, nth_error cs i = Some c ->
  got i log' = got i log ++ filter (fun b => lc_alive c && mem (fst b) (lc_eps c)) rq.
Proof.
  induction rq as [|[n d] rq IH]; intros log log' E i c Hc; cbn [broadcasts] in E.
  - injection E as <-. now rewrite app_nil_r.
  - destruct (to_clients answer server_handle seps n d 0 cs log) as [l1| |] eqn:E1; try discriminate.
    rewrite (IH _ _ E i c Hc), (to_clients_got _ _ _ _ _ _ _ E1 i). cbn [filter fst]. rewrite Nat.sub_0_r, Hc. cbn [Nat.leb Nat.add].
    replace (i <? length cs) with true by (symmetry; apply Nat.ltb_lt; eapply nth_error_lt; eauto). cbn [andb].
    destruct (lc_alive c && mem n (lc_eps c)); rewrite <- app_assoc; reflexivity.
Qed.

Theorem broadcasts_quiet seps cs : (forall i n d, answer i n d = None) -> forall rq log,
  exists log', broadcasts answer server_handle seps cs rq log = BNext log'.
Proof.
  intros HA rq. assert (one : forall n d cs k log, exists log', to_clients answer server_handle seps n d k cs log = BNext log').
  { intros n d cs0. induction cs0 as [|c cs0 IH]; intros k log; cbn; [eauto|]. destruct (lc_alive c && mem n (lc_eps c)); [rewrite HA|]; apply IH. }
  induction rq as [|[n d] rq IH]; intros log; cbn; [eauto|]. destruct (one n d cs 0 log) as (l1 & ->). apply IH.
Qed.
End B.

(** ** Connecting during a broadcast *)
Theorem connect_during_broadcast : krun [KConnect; KBegin; KConnect; KNext] k0 = KUB.
Proof. reflexivity. Qed.

Theorem calm_no_ub ls : forall s, match k_iter s with Some (g, i, e) => g = k_gen s | None => True end -> calm s ls -> krun ls s <> KUB.
Proof.
  induction ls as [|l ls IH]; intros s Hs Hc; cbn [krun]; [discriminate|]. cbn [calm] in Hc. destruct Hc as [H1 H2].
  destruct l; cbn [kstep] in *.
  - assert (Hi : k_iter s = None) by auto. destruct (k_len s =? k_cap s); (apply IH; [|exact H2]); cbn; now rewrite Hi.
  - destruct (k_iter s) eqn:E; [discriminate|]. apply IH; [|exact H2]. cbn. reflexivity.
  - destruct (k_iter s) as [[[g i] e]|] eqn:E; [|discriminate]. destruct (i =? e); [apply IH; [exact I|exact H2]|].
    subst g. rewrite Nat.eqb_refl in *. apply IH; [reflexivity|exact H2].
Qed.

(** An undisturbed iteration visits every client once. *)
Theorem iteration_complete s : k_iter s = None ->
  exists s', krun (KBegin :: repeat KNext (S (k_len s))) s = KNextS s' /\ k_visited s' = seq 0 (k_len s) /\ k_iter s' = None.
Proof.
  intros Hi. cbn [krun kstep]. rewrite Hi.
  assert (go : forall n i s1, k_iter s1 = Some (k_gen s1, i, i + n) -> exists s', krun (repeat KNext (S n)) s1 = KNextS s' /\ k_visited s' = k_visited s1 ++ seq i n /\ k_iter s' = None).
  { clear. assert (kc : forall l ls s, krun (l :: ls) s = match kstep l s with KNextS s' => krun ls s' | r => r end) by reflexivity.
    induction n as [|n IH]; intros i s1 H1.
    - cbn [repeat]. rewrite kc. unfold kstep. rewrite H1, Nat.add_0_r, Nat.eqb_refl. eexists. split; [reflexivity|]. cbn. rewrite app_nil_r. auto.
    - change (repeat KNext (S (S n))) with (KNext :: repeat KNext (S n)). rewrite kc. unfold kstep. rewrite H1.
      destruct (Nat.eqb_spec i (i + S n)); [lia|]. rewrite Nat.eqb_refl.
      match goal with |- context [krun _ ?t] => destruct (IH (S i) t) as (s' & R1 & R2 & R3) end; [cbn; do 2 f_equal; lia|].
      exists s'. split; [exact R1|]. split; [|exact R3]. rewrite R2. cbn. rewrite <- app_assoc. reflexivity. }
  match goal with |- context [krun _ ?t] => destruct (go (k_len s) 0 t) as (s' & R1 & R2 & R3) end; [reflexivity|].
  exists s'. auto.
Qed.

(** ** What was added, and what was requested *)
Lemma names_set r y : forall l x, nth_error l r = Some x -> lr_name y = lr_name x -> map lr_name (set_nth r y l) = map lr_name l.
Proof. induction r as [|r IH]; intros [|z l] x E H; cbn in *; try discriminate; [injection E as ->; congruence|]. f_equal. eauto. Qed.
Lemma names_break q : forall l, map lr_name (break_all q l) = map lr_name l.
Proof.
  unfold break_all. induction q as [|r q IH]; intros l; cbn; auto. rewrite IH. destruct (nth_error l r) as [x|] eqn:E; auto.
  destruct (lr_val x); auto. apply (names_set _ _ _ x E). reflexivity.
Qed.
Definition asked (l : llabel) : list bytes := match l with LRequest n _ => [n] | _ => [] end.
Definition grown (l : llabel) : list bytes := match l with LAddEp n => [n] | _ => [] end.
Lemma step_names l s s' : lstep l s = LNext s' -> map lr_name (lo_reqs s') = map lr_name (lo_reqs s) ++ asked l /\ lo_eps s' = grown l ++ lo_eps s.
Proof.
  intros E. destruct l; cbn [lstep asked grown app] in *; rewrite ?app_nil_r.
  - destruct (lo_todo s); [discriminate|]. injection E as <-. cbn. rewrite map_app. auto.
  - destruct (nth_error (lo_reqs s) r) as [x|] eqn:N; [|discriminate]. injection E as <-. cbn. split; auto. apply (names_set _ _ _ x N). reflexivity.
  - injection E as <-. auto.
  - destruct (lo_todo s); [discriminate|]. injection E as <-. auto.
  - destruct (lo_todo s) as [[|r rest]|]; try discriminate. destruct (nth_error (lo_reqs s) r) as [x|] eqn:N; [|discriminate].
    destruct (negb (lr_held x)); [injection E as <-; auto|]. destruct (mem (lr_name x) (lo_eps s)); [|discriminate]. injection E as <-. cbn. split; auto.
    apply (names_set _ _ _ x N). reflexivity.
  - destruct (lo_todo s) as [[|r rest]|]; try discriminate. injection E as <-. cbn. rewrite names_break. auto.
Qed.
Lemma run_names ls : forall s s', lrun ls s = LNext s' ->
  (forall n, In n (map lr_name (lo_reqs s')) <-> In n (map lr_name (lo_reqs s)) \/ exists d, In (LRequest n d) ls) /\
  (forall n, In n (lo_eps s') <-> In n (lo_eps s) \/ In (LAddEp n) ls).
Proof.
  induction ls as [|l ls IH]; intros s s' R; cbn in R.
  - injection R as <-. split; intros n; cbn; firstorder.
  - destruct (lstep l s) as [s1| |] eqn:E; try discriminate. destruct (step_names _ _ _ E) as (N & A). destruct (IH _ _ R) as (H & K). split; intros n.
    + rewrite H, N, in_app_iff. cbn [In]. split.
      * intros [[X|X]|(d & X)]; eauto. destruct l; try destruct X as [<-|[]]; try destruct X. eauto.
      * intros [X|(d & [->|X])]; eauto. left. right. now left.
    + rewrite K, A, in_app_iff. cbn [In]. split.
      * intros [[X|X]|X]; auto. destruct l; try destruct X as [<-|[]]; try destruct X. auto.
      * intros [X|[->|X]]; auto. left. left. now left.
Qed.
Lemma mem_eps n l : mem n l = true <-> In n l.
Proof.
  unfold mem. rewrite existsb_exists. split.
  - intros (x & X & E). apply bytes_eqb_eq in E. subst. exact X.
  - intros X. exists n. split; auto. apply bytes_eqb_eq. reflexivity.
Qed.
Theorem only_never_added ls l s : lrun ls lo0 = LNext s -> lstep l s = LUB -> exists n d, In (LRequest n d) ls /\ ~ In (LAddEp n) ls.
Proof.
  intros R U. destruct (ub_only_unknown _ _ U) as (r & rest & x & _ & X & _ & M). destruct (run_names _ _ _ R) as (H & K).
  assert (I : In (lr_name x) (map lr_name (lo_reqs s))) by (apply in_map; exact (nth_error_In _ _ X)). apply H in I as [[]|(d & D)]. exists (lr_name x), d. split; auto.
  intros A. assert (I : In (lr_name x) (lo_eps s)) by (apply K; auto). apply mem_eps in I. congruence.
Qed.

(** ** Without a connection *)
Lemma unconnected_same l s s' : lstep_unconnected l s = LNext s' -> lstep l s = LNext s'.
Proof.
  destruct l; cbn; auto. destruct (lo_todo s) as [[|r rest]|]; try discriminate. destruct (nth_error (lo_reqs s) r) as [x|]; [|discriminate].
  destruct (negb (lr_held x)); [auto|discriminate].
Qed.
Lemma unconnected_run ls : forall s s', lrun_unconnected ls s = LNext s' -> lrun ls s = LNext s'.
Proof.
  induction ls as [|l ls IH]; intros s s' R; cbn in *; auto. destruct (lstep_unconnected l s) as [s1| |] eqn:E; try discriminate.
  rewrite (unconnected_same _ _ _ E). auto.
Qed.
Definition released (s : lstate) : Prop := forall r x, nth_error (lo_reqs s) r = Some x -> lr_held x = false.
Lemma served_same s ans s' : released s -> lstep (LServe ans) s = LNext s' -> lstep_unconnected (LServe ans) s = LNext s' /\ lo_reqs s' = lo_reqs s.
Proof.
  intros R E. cbn in *. destruct (lo_todo s) as [[|r rest]|]; try discriminate. destruct (nth_error (lo_reqs s) r) as [x|] eqn:N; [|discriminate].
  rewrite (R _ _ N) in *. cbn in *. injection E as <-. auto.
Qed.
Theorem unconnected_released ls s : lrun_unconnected ls lo0 = LNext s -> lo_todo s = None -> released s -> forall ans,
  exists s', lrun_unconnected (LBegin :: repeat (LServe ans) (l_pending s) ++ [LEnd]) s = LNext s' /\ l_pending s' = 0 /\ lo_calls s' = lo_calls s.
Proof.
  intros R T L ans. apply unconnected_run in R. assert (K : known_eps s) by (intros r x N H; rewrite (L _ _ N) in H; discriminate).
  destruct (pass_completes s (ex_intro _ ls R) T K ans) as (s' & E & P & _). exists s'.
  assert (G : forall n a, released a -> forall b, lrun (repeat (LServe ans) n ++ [LEnd]) a = LNext b -> lrun_unconnected (repeat (LServe ans) n ++ [LEnd]) a = LNext b /\ lo_calls b = lo_calls a).
  { induction n as [|n IH]; intros a A b B; cbn [repeat app] in *.
    - cbn in *. split; auto. destruct (lo_todo a) as [[|]|]; try discriminate. injection B as <-. reflexivity.
    - change (lrun (LServe ans :: (repeat (LServe ans) n ++ [LEnd])) a) with (match lstep (LServe ans) a with LNext s' => lrun (repeat (LServe ans) n ++ [LEnd]) s' | r => r end) in B.
      destruct (lstep (LServe ans) a) as [a1| |] eqn:S1; try discriminate. destruct (served_same _ _ _ A S1) as (S2 & Q).
      assert (A1 : released a1) by (intros r x; rewrite Q; apply A). destruct (IH _ A1 _ B) as (X & Y).
      change (lrun_unconnected (LServe ans :: (repeat (LServe ans) n ++ [LEnd])) a) with (match lstep_unconnected (LServe ans) a with LNext s' => lrun_unconnected (repeat (LServe ans) n ++ [LEnd]) s' | r => r end).
      rewrite S2. split; auto. rewrite Y. cbn in S1. destruct (lo_todo a) as [[|r rest]|]; try discriminate. destruct (nth_error (lo_reqs a) r) as [x|] eqn:N; [|discriminate].
      rewrite (A _ _ N) in S1. cbn in S1. injection S1 as <-. reflexivity. }
  cbn [lrun lrun_unconnected] in *. change (lstep_unconnected LBegin s) with (lstep LBegin s). destruct (lstep LBegin s) as [s1| |] eqn:B; try discriminate.
  cbn in B. rewrite T in B. injection B as <-. match type of E with lrun _ ?a = _ => destruct (G (l_pending s) a L _ E) as (X & Y) end. auto.
Qed.
