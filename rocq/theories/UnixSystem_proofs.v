(** Proofs about the Unix transport system: C04-C09. *)
From Coq Require Import List Arith NArith Ascii Bool Lia Permutation.
Import ListNotations.
From Verif Require Import Protocol_model UnixSystem_model UnixSystem_spec.

Local Opaque chunk_size.

(** ** Basics *)
Lemma bytes_eqb_eq a b : bytes_eqb a b = true <-> a = b.
Proof.
  revert b. induction a as [|x a IH]; destruct b as [|y b]; cbn; try (split; congruence).
  rewrite andb_true_iff, Ascii.eqb_eq, IH. split; [intros [-> ->]; reflexivity|intros H; inversion H; auto].
Qed.
Lemma bytes_eqb_refl a : bytes_eqb a a = true.
Proof. now apply bytes_eqb_eq. Qed.

Lemma key_eqb_eq a b : key_eqb a b = true <-> a = b.
Proof.
  destruct a as [n i], b as [n' i']. unfold key_eqb. cbn. rewrite andb_true_iff, bytes_eqb_eq, N.eqb_eq.
  split; [intros [-> ->]; reflexivity|intros H; inversion H; auto].
Qed.

Lemma upd_same {A} (f : nat -> A) k v : upd f k v k = v.
Proof. unfold upd. now rewrite Nat.eqb_refl. Qed.
Lemma upd_other {A} (f : nat -> A) k v n : n <> k -> upd f k v n = f n.
Proof. intros H. unfold upd. now destruct (Nat.eqb_spec n k). Qed.

Lemma set_nth_same {A} (x : A) : forall l n, n < length l -> nth_error (set_nth n x l) n = Some x.
Proof. induction l as [|y l IH]; destruct n; cbn; intros; try lia; auto. apply IH. lia. Qed.
Lemma set_nth_other {A} (x : A) : forall l n k, k <> n -> nth_error (set_nth n x l) k = nth_error l k.
Proof. induction l as [|y l IH]; destruct n; intros k Hk; cbn; auto; destruct k; cbn; auto; try lia; try (now contradiction Hk). Qed.
Lemma set_nth_length {A} (x : A) : forall l n, length (set_nth n x l) = length l.
Proof. induction l; destruct n; cbn; auto. Qed.
Lemma nth_error_lt {A} (l : list A) n x : nth_error l n = Some x -> n < length l.
Proof. intros H. apply nth_error_Some. congruence. Qed.
Lemma set_nth_case {A} (l : list A) n x k y : n < length l -> nth_error (set_nth n x l) k = Some y ->
  (k = n /\ y = x) \/ (k <> n /\ nth_error l k = Some y).
Proof.
  intros Hn H. destruct (Nat.eq_dec k n) as [->|Hk].
  - rewrite set_nth_same in H by assumption. left. split; congruence.
  - rewrite set_nth_other in H by assumption. auto.
Qed.

Lemma p_find_in k l r : p_find k l = Some r -> In (k, r) l.
Proof.
  induction l as [|[k' r'] l IH]; cbn; [discriminate|]. destruct (key_eqb k k') eqn:E.
  - intros H. injection H as ->. apply key_eqb_eq in E. subst k'. now left.
  - intros H. right. auto.
Qed.
Lemma p_find_none k l r : p_find k l = None -> ~ In (k, r) l.
Proof.
  induction l as [|[k' r'] l IH]; cbn; [auto|]. destruct (key_eqb k k') eqn:E; [discriminate|].
  intros H [H'|H']; [|now apply IH]. injection H' as -> ->. rewrite (proj2 (key_eqb_eq k k) eq_refl) in E. discriminate.
Qed.
Lemma p_erase_in k l k' r : In (k', r) (p_erase k l) <-> In (k', r) l /\ k' <> k.
Proof.
  unfold p_erase. rewrite filter_In. cbn. split; intros [H1 H2]; split; auto.
  - intros ->. rewrite (proj2 (key_eqb_eq k k) eq_refl) in H2. discriminate.
  - destruct (key_eqb k k') eqn:E; [apply key_eqb_eq in E; congruence|reflexivity].
Qed.

Lemma run_app l1 : forall l2 s, run (l1 ++ l2) s = match run l1 s with Some s' => run l2 s' | None => None end.
Proof. induction l1 as [|l l1 IH]; intros l2 s; cbn; [reflexivity|]. destruct (step l s); auto. Qed.

(** Induction over reachable states. *)
Lemma reached_ind (P : label -> Prop) (I : sys -> Prop) :
  I sys0 -> (forall s l s', reached P s -> I s -> P l -> step l s = Some s' -> I s') -> forall s, reached P s -> I s.
Proof.
  intros H0 HS s (ls & HF & HR). revert s HF HR. induction ls as [|l ls IH] using rev_ind; intros s HF HR.
  - cbn in HR. injection HR as <-. exact H0.
  - apply Forall_app in HF. destruct HF as [HF Hl]. inversion Hl; subst.
    rewrite run_app in HR. destruct (run ls sys0) as [s1|] eqn:E; [|discriminate]. cbn in HR.
    destruct (step l s1) as [s2|] eqn:E2; [|discriminate]. injection HR as <-.
    apply (HS s1 l); [exists ls; auto|apply IH; auto|assumption|assumption].
Qed.
Lemma reached_step (P : label -> Prop) s l s' : reached P s -> P l -> step l s = Some s' -> reached P s'.
Proof.
  intros (ls & HF & HR) Hl HS. exists (ls ++ [l]). split.
  - apply Forall_app. auto.
  - rewrite run_app, HR. cbn. now rewrite HS.
Qed.
Lemma reached_weaken (P Q : label -> Prop) s : (forall l, P l -> Q l) -> reached P s -> reached Q s.
Proof. intros H (ls & HF & HR). exists ls. split; [eapply Forall_impl; eauto|exact HR]. Qed.

(** ** What a step does to one client *)
Definition ccalls (c : nat) (s : sys) : list (msg * option bytes) :=
  map (fun e => (snd (fst e), snd e)) (filter (fun e => fst (fst e) =? c) (s_calls s)).

Inductive local (c : nat) : label -> client -> list (msg * option bytes) -> client -> list (msg * option bytes) -> Prop :=
  | L_connect x k : c_born x = false -> local c (Connect c) x k (set_flags true true true false x) k
  | L_ep x k n : local c (AddClientEp c n) x k (set_eps (n :: c_eps x) x) k
  | L_take x k n d : c_born x = true ->
      local c (ReqTake c n d) x k (set_next (c_next x + 1)%N
             (set_reqs (c_reqs x ++ [{| r_id := c_next x; r_name := n; r_data := d; r_stage := Taken; r_held := true;
                                        r_val := Unready |}]) x)) k
  | L_send x k r q : nth_error (c_reqs x) r = Some q -> r_stage q = Taken -> c_open x = true ->
      local c (ReqSend c r true) x k (push_out (Full (msg_of q) (GReq r)) (set_reqs (set_nth r (with_stage Sent q) (c_reqs x)) x)) k
  | L_sendfail x k r q ok : nth_error (c_reqs x) r = Some q -> r_stage q = Taken -> c_open x && ok = false ->
      local c (ReqSend c r ok) x k (set_reqs (set_nth r (with_val CommError (with_stage Failed q)) (c_reqs x)) x) k
  | L_book x k r q : nth_error (c_reqs x) r = Some q -> r_stage q = Sent ->
      local c (ReqBook c r) x k (set_pending (p_put (r_name q, r_id q) r (c_pending x))
                           (set_reqs (set_nth r (with_stage Booked q) (c_reqs x)) x)) k
  | L_drop x k r q : nth_error (c_reqs x) r = Some q -> in_call q = false ->
      local c (Drop c r) x k (set_reqs (set_nth r (with_held false q) (c_reqs x)) x) k
  | L_recv x k ua eof x' : client_recv eof ua x = Some x' -> local c (CliRecv c ua) x k x' k
  | L_cleanup x k : local c (CliCleanup c) x k (cleanup x) k
  | L_cast x k n d : local c (CliCast c n d) x k (push_out (Full {| req_id := 0; ep_name := n; payload := d |} GCast) x) k
  | L_raw x k i : local c (CliRaw c i) x k (push_out (match i with Full m _ => Full m GRaw | i => i end) x) k
  | L_close x k : c_born x = true -> existsb in_call (c_reqs x) = false ->
      local c (CliClose c) x k (set_pending [] (set_in [] (set_flags (c_born x) false false (c_term x)
             (set_reqs (broken (c_pending x) (c_reqs x)) x)))) k
  | L_answer x k m g r d : c_out x = Full m g :: r ->
      local c (SrvRecv c (Some d)) x k
        (push_in (Full {| req_id := req_id m; ep_name := ep_name m; payload := d |} GAns) (set_out r x)) (k ++ [(m, Some d)])
  | L_noanswer x k m g r : c_out x = Full m g :: r ->
      local c (SrvRecv c None) x k (set_out r x) (k ++ [(m, None)])
  | L_unknown x k i r ans : c_out x = i :: r -> local c (SrvRecv c ans) x k (set_out r x) k
  | L_bcast x k j n d : local c DispBcast x k (push_in (Full {| req_id := 0; ep_name := n; payload := d |} (GBcast j)) x) k
  | L_crash x k m g r d j : c_out x = Full m g :: r -> j < length d ->
      local c (SrvCrashSending c d j) x k
        (push_in (let m' := {| req_id := req_id m; ep_name := ep_name m; payload := firstn j d |} in
                  if j mod chunk_size =? 0 then Cut m' else Full m' GAns) (set_out r x)) (k ++ [(m, Some d)]).

Lemma ccalls_app c s l : map (fun e => (snd (fst e), snd e)) (filter (fun e => fst (fst e) =? c) (s_calls s ++ l)) =
  ccalls c s ++ map (fun e : nat * msg * option bytes => (snd (fst e), snd e)) (filter (fun e => fst (fst e) =? c) l).
Proof. unfold ccalls. now rewrite filter_app, map_app. Qed.

Ltac same := left; split; [cbn; rewrite ?upd_other by (apply not_eq_sym; assumption); reflexivity | reflexivity].

Lemma step_local c l s s' : step l s = Some s' ->
  (s_cl s' c = s_cl s c /\ ccalls c s' = ccalls c s) \/
  local c l (s_cl s c) (ccalls c s) (s_cl s' c) (ccalls c s').
Proof.
  destruct l as [c'|c'|c' n|n|c' n d|c' r ok|c' r|c' r|c' ua|c'|c' n d|c' i|c'|c' ans|c'|n d| | |c' d j]; cbn [step]; intros E.
  - (* Connect *) destruct (c_born (s_cl s c') || negb (s_up s)) eqn:B; [discriminate|]. apply orb_false_iff in B. destruct B as [B _].
    injection E as <-. destruct (Nat.eq_dec c' c) as [->|H]; [|same].
    right. cbn. rewrite upd_same. now constructor.
  - (* Accept *) destruct (s_up s); [|discriminate]. destruct (s_conn s c'); try discriminate. injection E as <-. same.
  - injection E as <-. destruct (Nat.eq_dec c' c) as [->|H]; [|same]. right. cbn. rewrite upd_same. constructor.
  - injection E as <-. same.
  - (* ReqTake *) destruct (negb (c_born (s_cl s c'))) eqn:B; [discriminate|]. apply negb_false_iff in B.
    injection E as <-. destruct (Nat.eq_dec c' c) as [->|H]; [|same]. right. cbn. rewrite upd_same. now constructor.
  - (* ReqSend *) destruct (nth_error (c_reqs (s_cl s c')) r) as [q|] eqn:Eq; [|discriminate].
    destruct (r_stage q) eqn:Es; try discriminate. destruct (c_open (s_cl s c') && ok) eqn:Eo; injection E as <-;
    (destruct (Nat.eq_dec c' c) as [->|H]; [|same]); right; cbn; rewrite upd_same.
    + apply andb_true_iff in Eo. destruct Eo as [Eo ->]. exact (L_send c _ _ _ _ Eq Es Eo).
    + exact (L_sendfail c _ _ _ _ _ Eq Es Eo).
  - (* ReqBook *) destruct (nth_error (c_reqs (s_cl s c')) r) as [q|] eqn:Eq; [|discriminate].
    destruct (r_stage q) eqn:Es; try discriminate. injection E as <-.
    destruct (Nat.eq_dec c' c) as [->|H]; [|same]; right; cbn; rewrite upd_same. now constructor.
  - (* Drop *) destruct (nth_error (c_reqs (s_cl s c')) r) as [q|] eqn:Eq; [|discriminate].
    destruct (in_call q) eqn:Es; [discriminate|]. injection E as <-.
    destruct (Nat.eq_dec c' c) as [->|H]; [|same]; right; cbn; rewrite upd_same. now constructor.
  - (* CliRecv *) destruct (client_recv (eof_for s c') ua (s_cl s c')) as [x|] eqn:Er; [|discriminate]. injection E as <-.
    destruct (Nat.eq_dec c' c) as [->|H]; [|same]; right; cbn; rewrite upd_same. econstructor; eauto.
  - injection E as <-. destruct (Nat.eq_dec c' c) as [->|H]; [|same]; right; cbn; rewrite upd_same. constructor.
  - destruct (c_run (s_cl s c') && c_open (s_cl s c')); [|discriminate]. injection E as <-.
    destruct (Nat.eq_dec c' c) as [->|H]; [|same]; right; cbn; rewrite upd_same. constructor.
  - destruct (c_open (s_cl s c')); [|discriminate]. injection E as <-.
    destruct (Nat.eq_dec c' c) as [->|H]; [|same]; right; cbn; rewrite upd_same. constructor.
  - (* CliClose *) destruct (negb (c_born (s_cl s c')) || existsb in_call (c_reqs (s_cl s c'))) eqn:B; [discriminate|].
    apply orb_false_iff in B. destruct B as [B1 B2]. apply negb_false_iff in B1. injection E as <-.
    destruct (Nat.eq_dec c' c) as [->|H]; [|same]; right; cbn; rewrite upd_same. now constructor.
  - (* SrvRecv *) destruct (s_up s); [|discriminate]. destruct (s_conn s c'); try discriminate.
    destruct (c_out (s_cl s c')) as [|[m g|m|] r] eqn:Eo; [discriminate| | |].
    + destruct (mem (ep_name m) (s_eps s)).
      * destruct ans as [d|]; injection E as <-; (destruct (Nat.eq_dec c' c) as [->|H]).
        -- right. unfold ccalls at 2. cbn. rewrite !upd_same. rewrite ccalls_app. cbn. rewrite Nat.eqb_refl.
           now apply (L_answer c) with (g := g).
        -- left. split; [cbn; now rewrite !upd_other by (apply not_eq_sym; assumption)|].
           unfold ccalls at 1. cbn. rewrite ccalls_app. cbn. destruct (Nat.eqb_spec c' c); [contradiction|]. cbn. now rewrite app_nil_r.
        -- right. unfold ccalls at 2. cbn. rewrite !upd_same. rewrite ccalls_app. cbn. rewrite Nat.eqb_refl.
           now apply (L_noanswer c) with (g := g).
        -- left. split; [cbn; now rewrite !upd_other by (apply not_eq_sym; assumption)|].
           unfold ccalls at 1. cbn. rewrite ccalls_app. cbn. destruct (Nat.eqb_spec c' c); [contradiction|]. cbn. now rewrite app_nil_r.
      * injection E as <-. destruct (Nat.eq_dec c' c) as [->|H]; [|same]. right. cbn. rewrite upd_same.
        now apply L_unknown with (i := Full m g).
    + injection E as <-. destruct (Nat.eq_dec c' c) as [->|H]; [|same]. right. cbn. rewrite upd_same.
        now apply L_unknown with (i := Cut m).
    + injection E as <-. destruct (Nat.eq_dec c' c) as [->|H]; [|same]. right. cbn. rewrite upd_same.
        now apply L_unknown with (i := Bad).
  - (* SrvLost *) destruct (s_up s); [|discriminate]. destruct (s_conn s c'); try discriminate.
    destruct (c_open (s_cl s c')); [discriminate|]. injection E as <-. same.
  - injection E as <-. same.
  - (* DispBcast *) destruct (negb (s_up s)); [discriminate|]. destruct (rev (s_queue s)) as [|[n d] rq]; [discriminate|].
    injection E as <-. cbn. destruct (is_accepted (s_conn s c)).
    + right. apply L_bcast.
    + left. split; reflexivity.
  - destruct (s_up s); [|discriminate]. injection E as <-. same.
  - (* SrvCrashSending *) destruct (s_up s); [|discriminate]. destruct (s_conn s c'); try discriminate.
    destruct (c_out (s_cl s c')) as [|[m g|m|] r] eqn:Eo; try discriminate.
    destruct (mem (ep_name m) (s_eps s)); [|discriminate]. cbn [andb] in E.
    destruct (Nat.ltb_spec j (length d)); [|discriminate]. injection E as <-.
    destruct (Nat.eq_dec c' c) as [->|H'].
    + right. unfold ccalls at 2. cbn [with_up with_calls with_cl s_cl s_calls]. rewrite !upd_same, ccalls_app. cbn [filter fst map snd].
      rewrite Nat.eqb_refl. now apply (L_crash c) with (g := g).
    + left. unfold ccalls at 1. cbn [with_up with_calls with_cl s_cl s_calls]. rewrite !upd_other by (apply not_eq_sym; assumption).
      split; [reflexivity|]. rewrite ccalls_app. cbn [filter fst]. destruct (Nat.eqb_spec c' c); [contradiction|]. cbn. now rewrite app_nil_r.
Qed.

(** ** Invariant of every execution *)
Record Inv1 (x : client) : Prop := {
  i_next : c_next x = (N.of_nat (length (c_reqs x)) + 1)%N;
  i_id : forall r q, nth_error (c_reqs x) r = Some q -> r_id q = (N.of_nat r + 1)%N;
  i_pend : forall k r, In (k, r) (c_pending x) -> exists q, nth_error (c_reqs x) r = Some q /\
             k = (r_name q, r_id q) /\ r_stage q = Booked /\ r_val q = Unready;
  i_call : forall r q, nth_error (c_reqs x) r = Some q -> in_call q = true -> r_val q = Unready /\ r_held q = true;
  i_term : c_term x = false;
}.

(** The outcomes of [process]. *)
Inductive processed (m : msg) (g : origin) (x : client) : option bytes -> client -> Prop :=
  | P_value r q ua : In ((ep_name m, req_id m), r) (c_pending x) -> nth_error (c_reqs x) r = Some q ->
      r_held q = true -> r_name q = ep_name m -> r_id q = req_id m -> r_stage q = Booked -> r_val q = Unready ->
      processed m g x ua (set_pending (p_erase (ep_name m, req_id m) (c_pending x)) (set_log (c_log x ++ [(m, g, Resolved r)])
                            (set_reqs (set_nth r (with_val (Value (payload m)) q) (c_reqs x)) x)))
  | P_dropped r q ua : In ((ep_name m, req_id m), r) (c_pending x) -> nth_error (c_reqs x) r = Some q ->
      r_held q = false -> r_name q = ep_name m -> r_id q = req_id m -> r_stage q = Booked -> r_val q = Unready ->
      processed m g x ua (set_pending (p_erase (ep_name m, req_id m) (c_pending x)) (set_log (c_log x ++ [(m, g, Released r)]) x))
  | P_ignored ua : (forall r, ~ In ((ep_name m, req_id m), r) (c_pending x)) -> mem (ep_name m) (c_eps x) = false ->
      processed m g x ua (set_log (c_log x ++ [(m, g, Nobody)]) x)
  | P_unsolicited ua : (forall r, ~ In ((ep_name m, req_id m), r) (c_pending x)) -> mem (ep_name m) (c_eps x) = true ->
      (ua = None \/ c_open x = false) -> processed m g x ua (set_log (c_log x ++ [(m, g, Unsolicited)]) x)
  | P_reply d : (forall r, ~ In ((ep_name m, req_id m), r) (c_pending x)) -> mem (ep_name m) (c_eps x) = true -> c_open x = true ->
      processed m g x (Some d) (set_out (c_out x ++ [Full {| req_id := req_id m; ep_name := ep_name m; payload := d |} GUns])
                                  (set_log (c_log x ++ [(m, g, Unsolicited)]) x)).

Lemma process_processed m g ua x : Inv1 x -> processed m g x ua (process m g ua x).
Proof.
  intros I. unfold process. destruct (p_find (ep_name m, req_id m) (c_pending x)) as [r|] eqn:F.
  - apply p_find_in in F. destruct (i_pend x I _ _ F) as (q & Hq & Hk & Hs & Hv). rewrite Hq.
    injection Hk as Hn Hi. destruct (r_held q) eqn:Hh.
    + rewrite Hv. exact (P_value m g x r q ua F Hq Hh (eq_sym Hn) (eq_sym Hi) Hs Hv).
    + exact (P_dropped m g x r q ua F Hq Hh (eq_sym Hn) (eq_sym Hi) Hs Hv).
  - assert (HN : forall r, ~ In ((ep_name m, req_id m), r) (c_pending x)) by (intros r; now apply p_find_none).
    destruct (mem (ep_name m) (c_eps x)) eqn:Em; [|now apply P_ignored].
    destruct ua as [d|]; cbn.
    + destruct (c_open x) eqn:Eo.
      * now apply P_reply.
      * apply P_unsolicited; auto.
    + apply P_unsolicited; auto.
Qed.

Lemma Inv1_ext x y : c_next y = c_next x -> c_reqs y = c_reqs x -> c_pending y = c_pending x -> c_term y = c_term x ->
  Inv1 x -> Inv1 y.
Proof. intros E1 E2 E3 E4 [H1 H2 H3 H4 H5]. constructor; rewrite ?E1, ?E2, ?E3, ?E4; auto. Qed.

Lemma Inv1_process m g ua x : Inv1 x -> Inv1 (process m g ua x).
Proof.
  intros I. destruct (process_processed m g ua x I).
  - pose proof (nth_error_lt _ _ _ H0) as Hlt. destruct I as [H1' H2' H3' H4' H5']. constructor; cbn.
    + rewrite set_nth_length. auto.
    + intros r' q' E. apply set_nth_case in E; [|exact Hlt]. destruct E as [[-> ->]|[_ E]]; cbn; eauto.
    + intros k' r' E. apply p_erase_in in E. destruct E as [E Hne].
      destruct (H3' _ _ E) as (q' & Hq' & Hk' & Hs' & Hv').
      destruct (Nat.eq_dec r' r) as [->|Hr].
      * exfalso. apply Hne. rewrite Hk'. congruence.
      * exists q'. rewrite set_nth_other by exact Hr. auto.
    + intros r' q' E Hc. apply set_nth_case in E; [|exact Hlt]. destruct E as [[-> ->]|[_ E]]; [|eauto].
      unfold in_call in Hc. cbn in Hc. rewrite H4 in Hc. discriminate.
    + exact H5'.
  - destruct I as [H1' H2' H3' H4' H5']. constructor; cbn; auto.
    intros k' r' E. apply p_erase_in in E. destruct E as [E _]. auto.
  - eapply Inv1_ext; [..|exact I]; reflexivity.
  - eapply Inv1_ext; [..|exact I]; reflexivity.
  - eapply Inv1_ext; [..|exact I]; reflexivity.
Qed.

Lemma Inv1_recv eof ua x x' : client_recv eof ua x = Some x' -> Inv1 x -> Inv1 x'.
Proof.
  unfold client_recv. intros E I. destruct (negb (c_run x)); [discriminate|].
  destruct (c_in x) as [|[m g|m|] r].
  - destruct eof; [|discriminate]. injection E as <-. apply Inv1_process. eapply Inv1_ext; [..|exact I]; reflexivity.
  - injection E as <-. apply Inv1_process. eapply Inv1_ext; [..|exact I]; reflexivity.
  - injection E as <-. apply Inv1_process. eapply Inv1_ext; [..|exact I]; reflexivity.
  - injection E as <-. apply Inv1_process. eapply Inv1_ext; [..|exact I]; reflexivity.
Qed.

Lemma Inv1_set r q q' x : Inv1 x -> nth_error (c_reqs x) r = Some q ->
  r_id q' = r_id q -> r_name q' = r_name q -> (r_stage q = Booked -> r_stage q' = Booked /\ r_val q' = r_val q) ->
  (in_call q' = true -> r_val q' = Unready /\ r_held q' = true) ->
  Inv1 (set_reqs (set_nth r q' (c_reqs x)) x).
Proof.
  intros [H1 H2 H3 H4 H5] Hq Ei En Eb Ec. pose proof (nth_error_lt _ _ _ Hq) as Hlt. constructor; cbn.
  - now rewrite set_nth_length.
  - intros r' q2 E. apply set_nth_case in E; [|exact Hlt]. destruct E as [[-> ->]|[_ E]]; [rewrite Ei|]; eauto.
  - intros k r' E. destruct (H3 _ _ E) as (q2 & Hq2 & Hk & Hs & Hv). destruct (Nat.eq_dec r' r) as [->|Hr].
    + rewrite Hq in Hq2. injection Hq2 as <-. exists q'. rewrite set_nth_same by exact Hlt. destruct (Eb Hs) as [Eb1 Eb2].
      rewrite Ei, En, Eb2. auto.
    + exists q2. rewrite set_nth_other by exact Hr. auto.
  - intros r' q2 E Hc. apply set_nth_case in E; [|exact Hlt]. destruct E as [[-> ->]|[_ E]]; eauto.
  - exact H5.
Qed.

Lemma broken_keeps p : forall l r q, nth_error (broken p l) r = Some q ->
  exists q0, nth_error l r = Some q0 /\ (q = q0 \/ (r_val q0 = Unready /\ q = with_val BrokenPromise q0)).
Proof.
  unfold broken. induction p as [|[k r0] p IH]; intros l r q E; [exists q; auto|].
  cbn [fold_left snd] in E. destruct (nth_error l r0) as [q1|] eqn:E1; [|auto].
  destruct (r_val q1) eqn:Ev; auto. apply IH in E. destruct E as (q0 & E0 & D).
  apply set_nth_case in E0; [|eapply nth_error_lt; eauto]. destruct E0 as [[-> ->]|[_ E0]]; [|eauto].
  exists q1. split; [exact E1|]. destruct D as [->|[D _]]; [auto|discriminate].
Qed.
Lemma broken_length p : forall l, length (broken p l) = length l.
Proof.
  unfold broken. induction p as [|[k r0] p IH]; intros l; [reflexivity|]. cbn [fold_left snd].
  destruct (nth_error l r0) as [q1|]; [|apply IH]. destruct (r_val q1); rewrite IH; auto. apply set_nth_length.
Qed.

Lemma Inv1_local c l x k x' k' : local c l x k x' k' -> Inv1 x -> Inv1 x'.
Proof.
  intros L I; destruct L.
  - destruct I as [H1 H2 H3 H4 H5]; constructor; auto.
  - eapply Inv1_ext; [..|exact I]; reflexivity.
  - destruct I as [H1 H2 H3 H4 H5]; constructor; cbn.
    + rewrite app_length. cbn. lia.
    + intros r q E. destruct (Nat.lt_ge_cases r (length (c_reqs x))) as [Hlt|Hge].
      * rewrite nth_error_app1 in E by exact Hlt. eauto.
      * rewrite nth_error_app2 in E by exact Hge. destruct (r - length (c_reqs x)) as [|j] eqn:Ej; cbn in E.
        -- injection E as <-. cbn. rewrite H1. lia.
        -- destruct j; discriminate.
    + intros k' r E. destruct (H3 _ _ E) as (q & Hq & R). exists q. split; [|exact R].
      rewrite nth_error_app1; [exact Hq|eapply nth_error_lt; eauto].
    + intros r q E Hc. destruct (Nat.lt_ge_cases r (length (c_reqs x))) as [Hlt|Hge].
      * rewrite nth_error_app1 in E by exact Hlt. eauto.
      * rewrite nth_error_app2 in E by exact Hge. destruct (r - length (c_reqs x)) as [|j] eqn:Ej; cbn in E.
        -- injection E as <-. auto.
        -- destruct j; discriminate.
    + exact H5.
  - eapply Inv1_ext; [..|eapply (Inv1_set r q (with_stage Sent q)); eauto]; try reflexivity; cbn.
    + congruence.
    + intros _. apply (i_call x I r q); [assumption|]. unfold in_call. now rewrite H0.
  - eapply (Inv1_set r q); eauto; cbn; [congruence|]. unfold in_call. cbn. discriminate.
  - assert (Hu : r_val q = Unready) by (apply (i_call x I r q); [assumption|]; unfold in_call; now rewrite H0).
    assert (I2 : Inv1 (set_reqs (set_nth r (with_stage Booked q) (c_reqs x)) x)).
    { eapply (Inv1_set r q); eauto; unfold in_call; cbn; discriminate. }
    destruct I2 as [H1 H2 H3 H4 H5]. constructor; auto. cbn. intros k' r' [E|E].
    + injection E as <- <-. exists (with_stage Booked q). rewrite set_nth_same by (eapply nth_error_lt; eauto). auto.
    + apply p_erase_in in E. destruct E as [E _]. exact (H3 _ _ E).
  - eapply (Inv1_set r q); eauto; cbn. intros Hc. unfold in_call in *. cbn in Hc. congruence.
  - eapply Inv1_recv; eauto.
  - destruct I as [H1 H2 H3 H4 H5]; constructor; cbn; auto. intros k' r E. apply filter_In in E. destruct E as [E _]. auto.
  - eapply Inv1_ext; [..|exact I]; reflexivity.
  - eapply Inv1_ext; [..|exact I]; reflexivity.
  - destruct I as [H1 H2 H3 H4 H5]; constructor; cbn; auto.
    + rewrite broken_length. exact H1.
    + intros r q E. apply broken_keeps in E. destruct E as (q0 & E0 & [->|[_ ->]]); cbn; eauto.
    + intros ? ? [].
    + intros r q E Hc. apply broken_keeps in E. destruct E as (q0 & E0 & [->|[_ ->]]); [eauto|].
      apply nth_error_In in E0. exfalso. assert (HE : existsb in_call (c_reqs x) = true); [|congruence].
      apply existsb_exists. exists q0. split; [exact E0|exact Hc].
  - unfold push_in. destruct (c_open _); eapply Inv1_ext; [..|exact I| | | | |exact I]; reflexivity.
  - eapply Inv1_ext; [..|exact I]; reflexivity.
  - eapply Inv1_ext; [..|exact I]; reflexivity.
  - unfold push_in. destruct (c_open _); [|exact I]. eapply Inv1_ext; [..|exact I]; reflexivity.
  - unfold push_in. destruct (c_open _); eapply Inv1_ext; [..|exact I| | | | |exact I]; reflexivity.
Qed.

Lemma Inv1_reached P s c : reached P s -> Inv1 (s_cl s c).
Proof.
  intros HR. apply (reached_ind P (fun s => Inv1 (s_cl s c))) in HR; [exact HR| |].
  - constructor; cbn; auto; try (intros ? ? H; destruct r; discriminate); try (intros ? [] ); intros; try contradiction;
      destruct r; discriminate.
  - intros s0 l s1 _ I _ E. destruct (step_local c l s0 s1 E) as [[-> _]|L]; [exact I|]. eapply Inv1_local; eauto.
Qed.

(** No promise is satisfied twice. *)
Theorem never_twice P s c : reached P s -> c_term (s_cl s c) = false.
Proof. intros HR. apply (i_term _ (Inv1_reached P s c HR)). Qed.

(** ** Invariant for a client that is treated fairly *)
Definition occ (i : N) (l : list item) : nat :=
  length (filter (fun it => match it with Full m _ => (req_id m =? i)%N | _ => false end) l).
Definition kocc (i : N) (k : list (msg * option bytes)) : nat := length (filter (fun e => (req_id (fst e) =? i)%N) k).
Definition sent (q : req) : bool := match r_stage q with Sent => true | Booked => true | _ => false end.
Definition credit (i : N) (x : client) : nat :=
  match nth_error (c_reqs x) (N.to_nat i - 1) with Some q => if sent q then 1 else 0 | None => 0 end.
Definition known (x : client) (m : msg) : Prop :=
  req_id m = 0%N \/ exists r q, nth_error (c_reqs x) r = Some q /\ m = msg_of q.

Record Inv2 (x : client) (k : list (msg * option bytes)) : Prop := {
  o_out : forall m g, In (Full m g) (c_out x) -> known x m;
  o_call : forall m a, In (m, a) k -> known x m;
  o_cnt : forall i, i <> 0%N -> occ i (c_out x) + kocc i k <= credit i x;
  o_in : forall m g, In (Full m g) (c_in x) -> req_id m = 0%N \/
           exists r q, nth_error (c_reqs x) r = Some q /\ ep_name m = r_name q /\ req_id m = r_id q /\
                       In (msg_of q, Some (payload m)) k;
  o_cut : forall m, ~ In (Cut m) (c_in x);
  o_val : forall r q d, nth_error (c_reqs x) r = Some q -> r_val q = Value d -> In (msg_of q, Some d) k;
}.

Lemma occ_app i a b : occ i (a ++ b) = occ i a + occ i b.
Proof. unfold occ. now rewrite filter_app, app_length. Qed.
Lemma kocc_app i a b : kocc i (a ++ b) = kocc i a + kocc i b.
Proof. unfold kocc. now rewrite filter_app, app_length. Qed.
Lemma occ_one i m g : occ i [Full m g] = if (req_id m =? i)%N then 1 else 0.
Proof. unfold occ. cbn. now destruct (req_id m =? i)%N. Qed.
Lemma kocc_one i m a : kocc i [(m, a)] = if (req_id m =? i)%N then 1 else 0.
Proof. unfold kocc. cbn. now destruct (req_id m =? i)%N. Qed.
Lemma occ_cons i m g r : occ i (Full m g :: r) = (if (req_id m =? i)%N then 1 else 0) + occ i r.
Proof. change (Full m g :: r) with ([Full m g] ++ r). now rewrite occ_app, occ_one. Qed.
Lemma occ_tail i y r : occ i r <= occ i (y :: r).
Proof. change (y :: r) with ([y] ++ r). rewrite occ_app. lia. Qed.

(** Requests keep their identity. *)
Definition extends (x x' : client) : Prop := forall r q, nth_error (c_reqs x) r = Some q ->
  exists q', nth_error (c_reqs x') r = Some q' /\ msg_of q' = msg_of q /\ (sent q = true -> sent q' = true).
Lemma extends_refl x : extends x x.
Proof. intros r q H. eauto. Qed.
Lemma extends_eq x x' : c_reqs x' = c_reqs x -> extends x x'.
Proof. intros E r q H. exists q. rewrite E. auto. Qed.
Lemma extends_set x r q q' : nth_error (c_reqs x) r = Some q -> msg_of q' = msg_of q -> (sent q = true -> sent q' = true) ->
  extends x (set_reqs (set_nth r q' (c_reqs x)) x).
Proof.
  intros Hq Hm Hs r' q2 H. cbn. destruct (Nat.eq_dec r' r) as [->|Hr].
  - rewrite set_nth_same by (eapply nth_error_lt; eauto). rewrite Hq in H. injection H as <-. eauto.
  - rewrite set_nth_other by exact Hr. eauto.
Qed.
Lemma known_extends x x' m : extends x x' -> known x m -> known x' m.
Proof.
  intros E [H|(r & q & H & ->)]; [now left|right]. destruct (E _ _ H) as (q' & H' & Hm & _). exists r, q'. auto.
Qed.
Lemma credit_extends i x x' : extends x x' -> credit i x <= credit i x'.
Proof.
  intros E. unfold credit. destruct (nth_error (c_reqs x) (N.to_nat i - 1)) as [q|] eqn:H; [|lia].
  destruct (E _ _ H) as (q' & -> & _ & Hs). destruct (sent q); [|lia]. rewrite Hs; auto.
Qed.

Lemma msg_of_fields q : req_id (msg_of q) = r_id q /\ ep_name (msg_of q) = r_name q /\ payload (msg_of q) = r_data q.
Proof. auto. Qed.

(** Steps that change neither the wire nor the values. *)
Lemma Inv2_frame x x' k : Inv2 x k -> extends x x' -> c_out x' = c_out x -> (forall y, In y (c_in x') -> In y (c_in x)) ->
  (forall r q d, nth_error (c_reqs x') r = Some q -> r_val q = Value d ->
     exists q0, nth_error (c_reqs x) r = Some q0 /\ msg_of q = msg_of q0 /\ r_val q0 = Value d) ->
  Inv2 x' k.
Proof.
  intros [H1 H2 H3 H4 H5 H6] E Eo Ei Ev. constructor.
  - intros m g Hin. rewrite Eo in Hin. eapply known_extends; eauto.
  - intros m a Hin. eapply known_extends; eauto.
  - intros i Hi. rewrite Eo. pose proof (H3 i Hi). pose proof (credit_extends i x x' E). lia.
  - intros m g Hin. destruct (H4 m g (Ei _ Hin)) as [H|(r & q & Hq & Hn & Hid & Hk)]; [now left|right].
    destruct (E _ _ Hq) as (q' & Hq' & Hm & _). exists r, q'. rewrite Hm.
    pose proof (f_equal ep_name Hm) as Hm1. pose proof (f_equal req_id Hm) as Hm2. cbn in Hm1, Hm2.
    rewrite Hm1, Hm2. auto.
  - intros m Hin. apply (H5 m). auto.
  - intros r q d Hq Hv. destruct (Ev _ _ _ Hq Hv) as (q0 & Hq0 & -> & Hv0). eauto.
Qed.

Lemma Inv2_same x x' k : Inv2 x k -> c_reqs x' = c_reqs x -> c_out x' = c_out x ->
  (forall y, In y (c_in x') -> In y (c_in x)) -> Inv2 x' k.
Proof.
  intros I Er Eo Ei. apply (Inv2_frame x); auto; [now apply extends_eq|]. intros r q d Hq Hv. rewrite Er in Hq. eauto.
Qed.

Lemma Inv2_set x k r q q' : Inv2 x k -> nth_error (c_reqs x) r = Some q -> msg_of q' = msg_of q ->
  (sent q = true -> sent q' = true) -> (forall d, r_val q' = Value d -> r_val q = Value d) ->
  Inv2 (set_reqs (set_nth r q' (c_reqs x)) x) k.
Proof.
  intros I Hq Hm Hs Hv. apply (Inv2_frame x); auto; [eapply extends_set; eauto|].
  cbn. intros r' q2 d E Ev. apply set_nth_case in E; [|eapply nth_error_lt; eauto].
  destruct E as [[-> ->]|[_ E]]; eauto.
Qed.

Lemma Inv2_process m g x k : Inv1 x -> Inv2 x k ->
  (req_id m = 0%N \/ exists r q, nth_error (c_reqs x) r = Some q /\ ep_name m = r_name q /\ req_id m = r_id q /\
                       In (msg_of q, Some (payload m)) k) ->
  Inv2 (process m g None x) k.
Proof.
  intros I1 I2 Hm. generalize (process_processed m g None x I1). generalize (process m g None x). intros y HP.
  inversion HP as [r q ua H H0 Hh H1 H2 H3 H4|r q ua H H0 Hh H1 H2 H3 H4|ua H H0|ua H H0 H1|]; subst.
  - apply (Inv2_same (set_reqs (set_nth r (with_val (Value (payload m)) q) (c_reqs x)) x)); auto.
    pose proof (i_id x I1 _ _ H0) as Hid.
    destruct Hm as [Hm|(r2 & q2 & Hq2 & Hn & Hi & Hk)]; [lia|].
    pose proof (i_id x I1 _ _ Hq2) as Hid2. assert (r2 = r) by lia. subst r2. rewrite H0 in Hq2. injection Hq2 as <-.
    destruct I2 as [P1 P2 P3 P4 P5 P6].
    assert (E : extends x (set_reqs (set_nth r (with_val (Value (payload m)) q) (c_reqs x)) x)) by (eapply extends_set; eauto).
    constructor; auto.
    + intros m' g' Hin. eapply known_extends; eauto.
    + intros m' a Hin. eapply known_extends; eauto.
    + intros i Hne. pose proof (P3 i Hne). pose proof (credit_extends i _ _ E). cbn [c_out set_reqs]. lia.
    + intros m' g' Hin. destruct (P4 m' g' Hin) as [H'|(r3 & q3 & Hq3 & Hn3 & Hid3 & Hk3)]; [now left|right].
      destruct (E _ _ Hq3) as (q4 & Hq4 & Hm4 & _). exists r3, q4. rewrite Hm4.
      pose proof (f_equal ep_name Hm4) as Hm5. pose proof (f_equal req_id Hm4) as Hm6. cbn in Hm5, Hm6.
      rewrite Hm5, Hm6. auto.
    + cbn. intros r' q' d' E' Ev. apply set_nth_case in E'; [|eapply nth_error_lt; eauto].
      destruct E' as [[-> ->]|[_ E']]; [|eauto]. cbn in Ev. injection Ev as <-. exact Hk.
  - apply (Inv2_same x); auto.
  - apply (Inv2_same x); auto.
  - apply (Inv2_same x); auto.
Qed.

Lemma Inv2_local c l x k x' k' : local c l x k x' k' -> fair_to c l -> Inv1 x -> Inv2 x k -> Inv2 x' k'.
Proof.
  intros L HF I1 I2; destruct L; cbn in HF; try contradiction.
  - now apply (Inv2_same x).
  - now apply (Inv2_same x).
  - (* take *) apply (Inv2_frame x); auto.
    + intros r q Hq. exists q. cbn. rewrite nth_error_app1; [auto|eapply nth_error_lt; eauto].
    + cbn. intros r q d' E Ev. destruct (Nat.lt_ge_cases r (length (c_reqs x))) as [Hlt|Hge].
      * rewrite nth_error_app1 in E by exact Hlt. eauto.
      * rewrite nth_error_app2 in E by exact Hge. destruct (r - length (c_reqs x)) as [|j] eqn:Ej; cbn in E.
        -- injection E as <-. discriminate.
        -- destruct j; discriminate.
  - (* send *)
    assert (Hid := i_id x I1 _ _ H).
    assert (I3 : Inv2 (set_reqs (set_nth r (with_stage Sent q) (c_reqs x)) x) k) by (eapply (Inv2_set x k r q); eauto).
    assert (Hz : occ (r_id q) (c_out x) + kocc (r_id q) k <= 0).
    { pose proof (o_cnt x k I2 (r_id q)) as Hc. unfold credit in Hc.
      replace (N.to_nat (r_id q) - 1) with r in Hc by lia. rewrite H in Hc. unfold sent in Hc. rewrite H0 in Hc. apply Hc. lia. }
    destruct I3 as [P1 P2 P3 P4 P5 P6]. constructor; auto.
    + cbn. intros m g Hin. apply in_app_or in Hin. destruct Hin as [Hin|[Hin|[]]]; [exact (P1 _ _ Hin)|].
      injection Hin as <- <-. right. exists r, (with_stage Sent q). split; [|reflexivity].
      cbn. apply set_nth_same. eapply nth_error_lt; eauto.
    + intros i Hi. cbn [push_out set_out c_out set_reqs]. rewrite occ_app, occ_one. specialize (P3 i Hi). cbn [c_out set_reqs] in P3.
      destruct (N.eqb_spec (req_id (msg_of q)) i) as [Heq|Hne].
      * subst i. cbn [msg_of req_id] in *. unfold credit. cbn [push_out set_out set_reqs c_reqs].
        replace (N.to_nat (r_id q) - 1) with r by lia. rewrite set_nth_same by (eapply nth_error_lt; eauto). cbn [sent with_stage r_stage]. cbn [set_reqs c_out]. lia.
      * change (credit i (push_out (Full (msg_of q) (GReq r)) (set_reqs (set_nth r (with_stage Sent q) (c_reqs x)) x)))
          with (credit i (set_reqs (set_nth r (with_stage Sent q) (c_reqs x)) x)). lia.
  - (* sendfail *) apply (Inv2_set x k r q); auto; cbn; unfold sent; cbn; [now rewrite H0|discriminate].
  - (* book *) apply (Inv2_same (set_reqs (set_nth r (with_stage Booked q) (c_reqs x)) x)); auto.
    apply (Inv2_set x k r q); auto; unfold sent; cbn; now rewrite H0.
  - (* drop *) apply (Inv2_set x k r q); auto.
  - (* recv *) destruct ua as [d|]; [contradiction|]. unfold client_recv in H. destruct (negb (c_run x)); [discriminate|].
    destruct (c_in x) as [|[m g|m|] r] eqn:Ei.
    + destruct eof; [|discriminate]. injection H as <-. apply Inv2_process; [| |now left].
      * eapply Inv1_ext; [..|exact I1]; reflexivity.
      * now apply (Inv2_same x).
    + injection H as <-. apply Inv2_process.
      * eapply Inv1_ext; [..|exact I1]; reflexivity.
      * apply (Inv2_same x); auto. cbn. intros y Hy. rewrite Ei. now right.
      * apply (o_in x k I2 m g). rewrite Ei. now left.
    + exfalso. apply (o_cut x k I2 m). rewrite Ei. now left.
    + injection H as <-. apply Inv2_process; [| |now left].
      * eapply Inv1_ext; [..|exact I1]; reflexivity.
      * apply (Inv2_same x); auto. cbn. intros y Hy. rewrite Ei. now right.
  - now apply (Inv2_same x).
  - (* cast *) destruct I2 as [P1 P2 P3 P4 P5 P6]. constructor; auto.
    + cbn. intros m g Hin. apply in_app_or in Hin. destruct Hin as [Hin|[Hin|[]]]; [exact (P1 _ _ Hin)|].
      injection Hin as <- <-. now left.
    + intros i Hi. specialize (P3 i Hi). cbn [push_out set_out c_out]. rewrite occ_app, occ_one. cbn [req_id].
      destruct (N.eqb_spec 0 i); [congruence|]. change (credit i (push_out (Full {| req_id := 0; ep_name := n; payload := d |} GCast) x)) with (credit i x). lia.
  - (* close *) apply (Inv2_frame x); auto; cbn.
    + intros r q Hq. cbn. destruct (nth_error (broken (c_pending x) (c_reqs x)) r) as [q'|] eqn:Eb.
      * destruct (broken_keeps _ _ _ _ Eb) as (q0 & E0 & D). rewrite Hq in E0. injection E0 as <-. exists q'. split; [reflexivity|].
        destruct D as [->|[_ ->]]; auto.
      * apply nth_error_None in Eb. rewrite broken_length in Eb. apply nth_error_lt in Hq. lia.
    + contradiction.
    + intros r q d Hq Hv. destruct (broken_keeps _ _ _ _ Hq) as (q0 & E0 & [->|[_ ->]]); [eauto|discriminate].
  - (* answer *) assert (Hkn : known x m) by (apply (o_out x k I2 m g); rewrite H; now left).
    assert (I3 : Inv2 (set_out r x) (k ++ [(m, Some d)])).
    { destruct I2 as [P1 P2 P3 P4 P5 P6]. constructor; auto.
      - cbn. intros m' g' Hin. apply (P1 m' g'). rewrite H. now right.
      - intros m' a Hin. apply in_app_or in Hin. destruct Hin as [Hin|[Hin|[]]]; [exact (P2 _ _ Hin)|]. injection Hin as <- <-. exact Hkn.
      - intros i Hi. specialize (P3 i Hi). rewrite H, occ_cons in P3. rewrite kocc_app, kocc_one. cbn [set_out c_out].
        change (credit i (set_out r x)) with (credit i x). lia.
      - cbn. intros m' g' Hin. destruct (P4 _ _ Hin) as [E|(r3 & q3 & E1 & E2 & E3 & E4)]; [now left|right].
        exists r3, q3. repeat split; auto. apply in_or_app. now left.
      - cbn. intros r3 q3 d3 E1 E2. apply in_or_app. left. eauto. }
    unfold push_in. destruct (c_open (set_out r x)); [|exact I3].
    destruct I3 as [P1 P2 P3 P4 P5 P6]. constructor; auto.
    + cbn. intros m' g' Hin. apply in_app_or in Hin. destruct Hin as [Hin|[Hin|[]]]; [exact (P4 _ _ Hin)|].
      injection Hin as <- <-. cbn. destruct Hkn as [E|(r3 & q3 & E1 & ->)]; [now left|right].
      exists r3, q3. repeat split; auto. apply in_or_app. right. now left.
    + cbn. intros m' Hin. apply in_app_or in Hin. destruct Hin as [Hin|[Hin|[]]]; [exact (P5 _ Hin)|discriminate].
  - (* no answer *) assert (Hkn : known x m) by (apply (o_out x k I2 m g); rewrite H; now left).
    destruct I2 as [P1 P2 P3 P4 P5 P6]. constructor; auto.
      + cbn. intros m' g' Hin. apply (P1 m' g'). rewrite H. now right.
      + intros m' a Hin. apply in_app_or in Hin. destruct Hin as [Hin|[Hin|[]]]; [exact (P2 _ _ Hin)|]. injection Hin as <- <-. exact Hkn.
      + intros i Hi. specialize (P3 i Hi). rewrite H, occ_cons in P3. rewrite kocc_app, kocc_one. cbn [set_out c_out].
        change (credit i (set_out r x)) with (credit i x). lia.
      + cbn. intros m' g' Hin. destruct (P4 _ _ Hin) as [E|(r3 & q3 & E1 & E2 & E3 & E4)]; [now left|right].
        exists r3, q3. repeat split; auto. apply in_or_app. now left.
      + cbn. intros r3 q3 d3 E1 E2. apply in_or_app. left. eauto.
  - (* unknown endpoint, malformed message *) destruct I2 as [P1 P2 P3 P4 P5 P6]. constructor; auto.
    + cbn. intros m' g' Hin. apply (P1 m' g'). rewrite H. now right.
    + intros i' Hi. specialize (P3 i' Hi). rewrite H in P3. pose proof (occ_tail i' i r). cbn [set_out c_out].
      change (credit i' (set_out r x)) with (credit i' x). lia.
  - (* broadcast *) unfold push_in. destruct (c_open x); [|exact I2].
    destruct I2 as [P1 P2 P3 P4 P5 P6]. constructor; auto.
    + cbn. intros m' g' Hin. apply in_app_or in Hin. destruct Hin as [Hin|[Hin|[]]]; [exact (P4 _ _ Hin)|].
      injection Hin as <- <-. now left.
    + cbn. intros m' Hin. apply in_app_or in Hin. destruct Hin as [Hin|[Hin|[]]]; [exact (P5 _ Hin)|discriminate].
Qed.

Lemma Inv2_reached c s : reached (fair_to c) s -> Inv2 (s_cl s c) (ccalls c s).
Proof.
  intros HR. apply (reached_ind (fair_to c) (fun s => Inv2 (s_cl s c) (ccalls c s))) in HR; [exact HR| |].
  - constructor; cbn; try (intros; contradiction); try lia; try (intros r q d E; destruct r; discriminate); auto.
  - intros s0 l s1 HR0 I HF E. destruct (step_local c l s0 s1 E) as [[-> ->]|L]; [exact I|].
    eapply Inv2_local; eauto. eapply Inv1_reached; eauto.
Qed.

Lemma ccalls_calls_for c i s : calls_for c i s = filter (fun e => (req_id (fst e) =? i)%N) (ccalls c s).
Proof.
  unfold calls_for, ccalls. induction (s_calls s) as [|[[c' m] a] l IH]; cbn; [reflexivity|].
  destruct (c' =? c); cbn; [|exact IH]. destruct (req_id m =? i)%N; cbn; now rewrite IH.
Qed.

(** C04: a value in a future is the answer the server endpoint gave to that very request, which it handled once. *)
Theorem response_of_request c s r q d : reached (fair_to c) s -> request_of s c r q -> r_val q = Value d ->
  calls_for c (r_id q) s = [(msg_of q, Some d)].
Proof.
  intros HR Hq Hv. pose proof (Inv2_reached c s HR) as I2. pose proof (Inv1_reached _ s c HR) as I1.
  assert (Hin : In (msg_of q, Some d) (calls_for c (r_id q) s)).
  { rewrite ccalls_calls_for. apply filter_In. split; [eapply o_val; eauto|]. cbn. apply N.eqb_refl. }
  assert (Hid := i_id _ I1 _ _ Hq).
  assert (Hle : length (calls_for c (r_id q) s) <= 1).
  { pose proof (o_cnt _ _ I2 (r_id q)) as Hc. rewrite ccalls_calls_for. unfold kocc in Hc.
    assert (credit (r_id q) (s_cl s c) <= 1) by (unfold credit; destruct (nth_error _ _) as [q0|]; [destruct (sent q0)|]; lia).
    assert (r_id q <> 0%N) by lia. specialize (Hc H0). lia. }
  destruct (calls_for c (r_id q) s) as [|e [|]]; cbn in Hle; [contradiction|destruct Hin as [->|[]]; reflexivity|lia].
Qed.

(** Also: every call for a request id of a fair client is for the request with that id, and happens at most once. *)
Theorem calls_at_most_once c s r q : reached (fair_to c) s -> request_of s c r q ->
  calls_for c (r_id q) s = [] \/ exists a, calls_for c (r_id q) s = [(msg_of q, a)].
Proof.
  intros HR Hq. pose proof (Inv2_reached c s HR) as I2. pose proof (Inv1_reached _ s c HR) as I1.
  assert (Hid := i_id _ I1 _ _ Hq).
  assert (Hle : length (calls_for c (r_id q) s) <= 1).
  { pose proof (o_cnt _ _ I2 (r_id q)) as Hc. rewrite ccalls_calls_for. unfold kocc in Hc.
    assert (credit (r_id q) (s_cl s c) <= 1) by (unfold credit; destruct (nth_error _ _) as [q0|]; [destruct (sent q0)|]; lia).
    assert (r_id q <> 0%N) by lia. specialize (Hc H0). lia. }
  destruct (calls_for c (r_id q) s) as [|[m a] [|]] eqn:E; cbn in Hle; [auto| |lia]. right. exists a.
  assert (Hin : In (m, a) (calls_for c (r_id q) s)) by (rewrite E; now left).
  rewrite ccalls_calls_for in Hin. apply filter_In in Hin. destruct Hin as [Hin Hi]. cbn in Hi. apply N.eqb_eq in Hi.
  destruct (o_call _ _ I2 _ _ Hin) as [H0|(r2 & q2 & Hq2 & ->)]; [lia|]. cbn in Hi.
  pose proof (i_id _ I1 _ _ Hq2). assert (r2 = r) by lia. subst r2. unfold request_of in Hq. rewrite Hq in Hq2. injection Hq2 as <-. reflexivity.
Qed.

(** ** Pending requests (C06) *)

Record Inv3 (x : client) : Prop := {
  p_complete : forall r q, nth_error (c_reqs x) r = Some q -> waiting q = true -> In ((r_name q, r_id q), r) (c_pending x);
  p_nodup : NoDup (map snd (c_pending x));
  p_failed : forall r q, nth_error (c_reqs x) r = Some q -> r_stage q = Failed -> r_val q = CommError;
}.

Lemma p_erase_nodup k l : NoDup (map snd l) -> NoDup (map snd (p_erase k l)).
Proof.
  unfold p_erase. induction l as [|[k' r] l IH]; cbn; intros H; [constructor|]. inversion H; subst.
  destruct (negb (key_eqb k k')); cbn; auto. constructor; auto.
  intros Hin. apply H2. apply in_map_iff in Hin. destruct Hin as ([k2 r2] & E & Hin). cbn in E. subst r2.
  apply filter_In in Hin. destruct Hin as [Hin _]. apply in_map_iff. exists (k2, r). auto.
Qed.

Lemma filter_nodup_snd (f : (bytes * N) * nat -> bool) l : NoDup (map snd l) -> NoDup (map snd (filter f l)).
Proof.
  induction l as [|[k' r] l IH]; cbn; intros H; [constructor|]. inversion H; subst.
  destruct (f (k', r)); cbn; auto. constructor; auto.
  intros Hin. apply H2. apply in_map_iff in Hin. destruct Hin as ([k2 r2] & E & Hin). cbn in E. subst r2.
  apply filter_In in Hin. destruct Hin as [Hin _]. apply in_map_iff. exists (k2, r). auto.
Qed.

Lemma Inv3_ext x y : c_reqs y = c_reqs x -> c_pending y = c_pending x -> Inv3 x -> Inv3 y.
Proof. intros E1 E2 [H1 H2 H3]. constructor; rewrite ?E1, ?E2; auto. Qed.

Lemma waiting_inv q : waiting q = true -> r_stage q = Booked /\ r_val q = Unready /\ r_held q = true.
Proof. unfold waiting. destruct (r_stage q), (r_val q); try discriminate. auto. Qed.

Lemma Inv3_process m g ua x : Inv1 x -> Inv3 x -> Inv3 (process m g ua x).
Proof.
  intros I1 I3. generalize (process_processed m g ua x I1). generalize (process m g ua x). intros y HP.
  inversion HP as [r q ua' H H0 Hh H1 H2 H3 H4|r q ua' H H0 Hh H1 H2 H3 H4|ua' H H0|ua' H H0 H1|]; subst.
  - destruct I3 as [P1 P2 P3]. constructor; cbn.
    + intros r' q' E Hw. apply set_nth_case in E; [|eapply nth_error_lt; eauto].
      destruct E as [[-> ->]|[Hr E]]; [apply waiting_inv in Hw; cbn in Hw; destruct Hw as (_ & Hw & _); discriminate|].
      apply p_erase_in. split; [auto|]. intros Hk. apply Hr.
      pose proof (i_id x I1 _ _ E). pose proof (i_id x I1 _ _ H0). injection Hk as _ Hk. lia.
    + now apply p_erase_nodup.
    + intros r' q' E Hs. apply set_nth_case in E; [|eapply nth_error_lt; eauto].
      destruct E as [[-> ->]|[Hr E]]; [cbn in Hs; congruence|eauto].
  - destruct I3 as [P1 P2 P3]. constructor; cbn.
    + intros r' q' E Hw. apply p_erase_in. split; [auto|]. intros Hk.
      pose proof (i_id x I1 _ _ E). pose proof (i_id x I1 _ _ H0). injection Hk as _ Hk. assert (r' = r) by lia. subst r'.
      rewrite H0 in E. injection E as <-. apply waiting_inv in Hw. destruct Hw as (_ & _ & Hw). congruence.
    + now apply p_erase_nodup.
    + exact P3.
  - now apply (Inv3_ext x).
  - now apply (Inv3_ext x).
  - now apply (Inv3_ext x).
Qed.

Lemma Inv3_set r q q' x : Inv3 x -> nth_error (c_reqs x) r = Some q -> r_id q' = r_id q -> r_name q' = r_name q ->
  (waiting q' = true -> waiting q = true) -> (r_stage q' = Failed -> r_val q' = CommError) ->
  Inv3 (set_reqs (set_nth r q' (c_reqs x)) x).
Proof.
  intros [P1 P2 P3] Hq Ei En Hw Hf. constructor; cbn; auto.
  - intros r' q2 E Hw2. apply set_nth_case in E; [|eapply nth_error_lt; eauto].
    destruct E as [[-> ->]|[_ E]]; [|eauto]. rewrite Ei, En. auto.
  - intros r' q2 E Hs. apply set_nth_case in E; [|eapply nth_error_lt; eauto]. destruct E as [[-> ->]|[_ E]]; eauto.
Qed.

Lemma broken_hits p : forall l r q, In r (map snd p) -> nth_error (broken p l) r = Some q -> r_val q <> Unready.
Proof.
  assert (keep : forall p l r q, nth_error (broken p l) r = Some q -> (forall q0, nth_error l r = Some q0 -> r_val q0 <> Unready) -> r_val q <> Unready).
  { intros p0 l r q E H. apply broken_keeps in E. destruct E as (q0 & E0 & [->|[_ ->]]); [eauto|discriminate]. }
  unfold broken in *. induction p as [|[k r0] p IH]; cbn [map In snd fold_left]; intros l r q Hin E; [contradiction|].
  destruct Hin as [<-|Hin]; [|destruct (nth_error l r0) as [q1|]; [destruct (r_val q1)|]; eauto].
  eapply keep; [exact E|]. intros q0 E0. destruct (nth_error l r0) as [q1|] eqn:E1; [|congruence].
  destruct (r_val q1) eqn:Ev; try (rewrite E1 in E0; injection E0 as <-; congruence).
  rewrite set_nth_same in E0 by (eapply nth_error_lt; eauto). injection E0 as <-. discriminate.
Qed.

Lemma Inv3_local c l x k x' k' : local c l x k x' k' -> Inv1 x -> Inv3 x -> Inv3 x'.
Proof.
  intros L I1 I3; destruct L; try (now apply (Inv3_ext x));
    try (unfold push_in; destruct (c_open _); now apply (Inv3_ext x)).
  - (* take *) destruct I3 as [P1 P2 P3]. constructor; cbn; auto.
    + intros r q E Hw. destruct (Nat.lt_ge_cases r (length (c_reqs x))) as [Hlt|Hge].
      * rewrite nth_error_app1 in E by exact Hlt. eauto.
      * rewrite nth_error_app2 in E by exact Hge. destruct (r - length (c_reqs x)) as [|j]; cbn in E.
        -- injection E as <-. discriminate.
        -- destruct j; discriminate.
    + intros r q E Hw. destruct (Nat.lt_ge_cases r (length (c_reqs x))) as [Hlt|Hge].
      * rewrite nth_error_app1 in E by exact Hlt. eauto.
      * rewrite nth_error_app2 in E by exact Hge. destruct (r - length (c_reqs x)) as [|j]; cbn in E.
        -- injection E as <-. discriminate.
        -- destruct j; discriminate.
  - (* send *) apply (Inv3_ext (set_reqs (set_nth r (with_stage Sent q) (c_reqs x)) x)); try reflexivity.
    apply (Inv3_set r q); auto; discriminate.
  - apply (Inv3_set r q); auto; discriminate.
  - (* book *) destruct I3 as [P1 P2 P3].
    assert (Hi : forall r' q', nth_error (c_reqs x) r' = Some q' -> (r_name q', r_id q') = (r_name q, r_id q) -> r' = r).
    { intros r' q' E Hk. pose proof (i_id x I1 _ _ E). pose proof (i_id x I1 _ _ H). injection Hk as _ Hk. lia. }
    constructor; cbn.
    + intros r' q' E Hw. apply set_nth_case in E; [|eapply nth_error_lt; eauto]. destruct E as [[-> ->]|[Hr E]]; [now left|].
      right. apply p_erase_in. split; [auto|]. intros Hk. apply Hr. eapply Hi; eauto.
    + constructor; [|now apply p_erase_nodup]. intros Hin. apply in_map_iff in Hin. destruct Hin as ([k2 r2] & E & Hin).
      cbn in E. subst r2. apply p_erase_in in Hin. destruct Hin as [Hin Hne].
      destruct (i_pend x I1 _ _ Hin) as (q2 & Hq2 & Hk2 & _). rewrite H in Hq2. injection Hq2 as <-. congruence.
    + intros r' q' E Hs. apply set_nth_case in E; [|eapply nth_error_lt; eauto].
      destruct E as [[-> ->]|[Hr E]]; [discriminate|eauto].
  - (* drop *) apply (Inv3_set r q); auto; cbn.
    + intros Hw. apply waiting_inv in Hw. destruct Hw as (_ & _ & Hw). discriminate.
    + intros Hs. apply (p_failed x I3 r q); auto.
  - (* recv *) unfold client_recv in H. destruct (negb (c_run x)); [discriminate|].
    destruct (c_in x) as [|[m g|m|] r]; [destruct eof; [|discriminate]| | |]; injection H as <-;
      (apply Inv3_process; [eapply Inv1_ext; [..|exact I1]; reflexivity|now apply (Inv3_ext x)]).
  - (* cleanup *) destruct I3 as [P1 P2 P3]. constructor; cbn; auto.
    + intros r q E Hw. apply filter_In. split; [auto|]. cbn. rewrite E. apply waiting_inv in Hw. tauto.
    + now apply filter_nodup_snd.
  - (* close *) destruct I3 as [P1 P2 P3]. constructor; cbn; [| constructor|].
    + intros r q E Hw. apply waiting_inv in Hw. destruct Hw as (W1 & W2 & W3). exfalso.
      destruct (broken_keeps _ _ _ _ E) as (q0 & E0 & [->|[_ ->]]); [|discriminate].
      apply (broken_hits (c_pending x) (c_reqs x) r q0); auto.
      apply in_map_iff. exists ((r_name q0, r_id q0), r). split; [reflexivity|]. apply P1; auto. unfold waiting. now rewrite W1, W2.
    + intros r q E Hs. destruct (broken_keeps _ _ _ _ E) as (q0 & E0 & [->|[Hu ->]]); [eauto|].
      cbn in Hs. rewrite (P3 _ _ E0 Hs) in Hu. discriminate.
Qed.

Lemma Inv3_reached P s c : reached P s -> Inv3 (s_cl s c).
Proof.
  intros HR. apply (reached_ind P (fun s => Inv3 (s_cl s c))) in HR; [exact HR| |].
  - constructor; cbn; try constructor; intros r q E; destruct r; discriminate.
  - intros s0 l s1 HR0 I _ E. destruct (step_local c l s0 s1 E) as [[-> _]|L]; [exact I|].
    eapply Inv3_local; eauto. eapply Inv1_reached; eauto.
Qed.

(** Positions in a list satisfying a test. *)
Lemma positions_count {A} (f : A -> bool) (l : list A) : forall idx : list nat, NoDup idx ->
  (forall r, In r idx <-> exists q, nth_error l r = Some q /\ f q = true) -> length idx = length (filter f l).
Proof.
  induction l as [|a l IH] using rev_ind; intros idx Hnd H.
  - destruct idx as [|r idx]; [reflexivity|]. destruct (proj1 (H r)) as (q & E & _); [now left|]. destruct r; discriminate.
  - rewrite filter_app, app_length. cbn.
    assert (Hlast : forall r q, nth_error (l ++ [a]) r = Some q -> r < length l /\ nth_error l r = Some q \/ r = length l /\ q = a).
    { intros r q E. destruct (Nat.lt_ge_cases r (length l)) as [Hlt|Hge].
      - left. rewrite nth_error_app1 in E by exact Hlt. auto.
      - right. rewrite nth_error_app2 in E by exact Hge. destruct (r - length l) as [|j] eqn:Ej; cbn in E.
        + injection E as <-. split; [lia|reflexivity].
        + destruct j; discriminate. }
    destruct (f a) eqn:Ef; cbn.
    + assert (Hin : In (length l) idx).
      { apply H. exists a. rewrite nth_error_app2, Nat.sub_diag by lia. auto. }
      apply in_split in Hin. destruct Hin as (i1 & i2 & ->). rewrite app_length. cbn.
      pose proof (NoDup_remove _ _ _ Hnd) as [Hnd' Hni]. specialize (IH (i1 ++ i2) Hnd'). rewrite app_length in IH.
      rewrite <- IH; [lia|]. intros r. split.
      * intros Hin. assert (Hr : In r (i1 ++ length l :: i2)) by (apply in_app_or in Hin; apply in_or_app; cbn; tauto).
        apply H in Hr. destruct Hr as (q & E & Hq). apply Hlast in E. destruct E as [[_ E]|[-> _]]; [eauto|contradiction].
      * intros (q & E & Hq). assert (Hr : In r (i1 ++ length l :: i2)).
        { apply H. exists q. rewrite nth_error_app1; [auto|apply nth_error_Some; congruence]. }
        apply in_app_or in Hr. apply in_or_app. destruct Hr as [Hr|[Hr|Hr]]; auto.
        subst r. apply nth_error_lt in E. lia.
    + rewrite Nat.add_0_r. apply IH; [exact Hnd|]. intros r. rewrite H. split.
      * intros (q & E & Hq). apply Hlast in E. destruct E as [[_ E]|[_ ->]]; [eauto|congruence].
      * intros (q & E & Hq). exists q. rewrite nth_error_app1; [auto|apply nth_error_Some; congruence].
Qed.

(** C06: after the cleanup of a worker pass. *)
Theorem pending_exact P s c s' : reached P s -> step (CliCleanup c) s = Some s' ->
  pending_requests s' c = length (filter waiting (c_reqs (s_cl s' c))).
Proof.
  intros HR E. cbn in E. injection E as <-. unfold pending_requests. cbn. rewrite upd_same. unfold cleanup.
  cbn [c_pending c_reqs set_pending]. set (x := s_cl s c).
  pose proof (Inv1_reached P s c HR) as I1. pose proof (Inv3_reached P s c HR) as I3. fold x in I1, I3.
  rewrite <- (map_length snd). apply positions_count.
  - apply filter_nodup_snd. apply (p_nodup x I3).
  - intros r. rewrite in_map_iff. split.
    + intros ([k r'] & Er & Hin). cbn in Er. subst r'. apply filter_In in Hin. destruct Hin as [Hin Hh]. cbn in Hh.
      destruct (i_pend x I1 _ _ Hin) as (q & Hq & _ & Hs & Hv). rewrite Hq in Hh. exists q. split; [exact Hq|].
      unfold waiting. now rewrite Hs, Hv.
    + intros (q & Hq & Hw). exists ((r_name q, r_id q), r). split; [reflexivity|]. apply filter_In. split.
      * now apply (p_complete x I3).
      * cbn. rewrite Hq. apply waiting_inv in Hw. tauto.
Qed.

(** At any time: pending entries are booked unanswered requests, one entry per request. *)
Theorem pending_sound P s c : reached P s ->
  NoDup (map snd (c_pending (s_cl s c))) /\
  forall k r, In (k, r) (c_pending (s_cl s c)) ->
    exists q, request_of s c r q /\ r_stage q = Booked /\ r_val q = Unready.
Proof.
  intros HR. split; [apply (p_nodup _ (Inv3_reached P s c HR))|]. intros k r Hin.
  destruct (i_pend _ (Inv1_reached P s c HR) _ _ Hin) as (q & Hq & _ & Hs & Hv). exists q. auto.
Qed.

(** A request whose transmission fails gets an error at once. *)
Theorem failed_request s c r q ok s' : request_of s c r q -> r_stage q = Taken ->
  c_open (s_cl s c) && ok = false -> step (ReqSend c r ok) s = Some s' ->
  exists q', request_of s' c r q' /\ r_val q' = CommError /\ r_stage q' = Failed.
Proof.
  intros Hq Ht Ho E. unfold request_of in *. cbn in E. rewrite Hq, Ht, Ho in E. injection E as <-.
  exists (with_val CommError (with_stage Failed q)). cbn. rewrite upd_same. cbn. rewrite set_nth_same by (eapply nth_error_lt; eauto). auto.
Qed.

(** A failed request stays failed, ready with an error, and is never pending. *)
Theorem failed_stays P s c r q : reached P s -> request_of s c r q -> r_stage q = Failed ->
  r_val q = CommError /\ forall k, ~ In (k, r) (c_pending (s_cl s c)).
Proof.
  intros HR Hq Hs. split.
  - apply (p_failed _ (Inv3_reached P s c HR) r q); auto.
  - intros k Hin. destruct (i_pend _ (Inv1_reached P s c HR) _ _ Hin) as (q2 & Hq2 & _ & Hs2 & _).
    unfold request_of in Hq. congruence.
Qed.

(** ** Delivery in order (C07) *)
Lemma process_fields m g ua x : Inv1 x -> c_in (process m g ua x) = c_in x /\ c_rx (process m g ua x) = c_rx x /\
  c_open (process m g ua x) = c_open x /\ c_run (process m g ua x) = c_run x /\ c_born (process m g ua x) = c_born x /\
  c_eps (process m g ua x) = c_eps x /\
  exists o, c_log (process m g ua x) = c_log x ++ [(m, g, o)] /\
    ((forall r, o <> Resolved r /\ o <> Released r) -> o = if mem (ep_name m) (c_eps x) then Unsolicited else Nobody) /\
    (req_id m = 0%N -> forall r, o <> Resolved r /\ o <> Released r).
Proof.
  intros I. generalize (process_processed m g ua x I). generalize (process m g ua x). intros y HP.
  assert (HI : forall r q, nth_error (c_reqs x) r = Some q -> r_id q = req_id m -> req_id m <> 0%N).
  { intros r q H E. pose proof (i_id x I _ _ H). lia. }
  inversion HP as [r q ua' H H0 Hh H1 H2 H3 H4|r q ua' H H0 Hh H1 H2 H3 H4|ua' H H0|ua' H H0 H1|d H H0 H1]; subst; cbn;
    repeat (split; [reflexivity|]).
  - exists (Resolved r). split; [reflexivity|]. split; [intros C; destruct (C r); congruence|intros C; exfalso; eapply HI; eauto].
  - exists (Released r). split; [reflexivity|]. split; [intros C; destruct (C r); congruence|intros C; exfalso; eapply HI; eauto].
  - exists Nobody. rewrite H0. split; [reflexivity|]. split; [auto|intros _ r; split; discriminate].
  - exists Unsolicited. rewrite H0. split; [reflexivity|]. split; [auto|intros _ r; split; discriminate].
  - exists Unsolicited. rewrite H0. split; [reflexivity|]. split; [auto|intros _ r; split; discriminate].
Qed.

Record Inv4 (x : client) : Prop := {
  f_open : c_open x = c_run x;
  f_born : c_born x = false -> c_run x = false /\ c_log x = [] /\ c_in x = [] /\ c_rx x = [];
  f_fifo : c_run x = true -> processed_items x ++ c_in x = c_rx x;
  f_bc : forall m k o, In (m, GBcast k, o) (c_log x) -> o = Unsolicited \/ o = Nobody;
  f_bid : forall m k, In (Full m (GBcast k)) (c_in x) -> req_id m = 0%N;
}.

Lemma Inv4_ext x y : c_open y = c_open x -> c_run y = c_run x -> c_born y = c_born x -> c_log y = c_log x -> c_in y = c_in x ->
  c_rx y = c_rx x -> Inv4 x -> Inv4 y.
Proof.
  intros E1 E2 E3 E4 E5 E6 [H1 H2 H3 H4 H5]. constructor; unfold processed_items in *; rewrite ?E1, ?E2, ?E3, ?E4, ?E5, ?E6; auto.
Qed.

Lemma Inv4_local c l x k x' k' : local c l x k x' k' -> Inv1 x -> Inv4 x -> Inv4 x'.
Proof.
  intros L I1 I4; destruct L; try (now apply (Inv4_ext x)).
  - (* connect *) destruct I4 as [P1 P2 P3 P4 P5]. destruct (P2 H) as (E1 & E2 & E3 & E4). constructor; auto; try discriminate.
    intros _. unfold processed_items. cbn. now rewrite E2, E3, E4.
  - (* recv *) unfold client_recv in H. destruct (c_run x) eqn:Er; [|discriminate]. cbn [negb] in H.
    destruct I4 as [P1 P2 P3 P4 P5].
    assert (Hb : c_born x = true) by (destruct (c_born x) eqn:B; [reflexivity|destruct (P2 eq_refl); congruence]).
    assert (gen : forall m g x0, Inv1 x0 -> c_log x0 = c_log x -> c_born x0 = true -> c_open x0 = c_run x0 ->
       (forall y, In y (c_in x0) -> In y (c_in x)) -> (forall k0, g = GBcast k0 -> req_id m = 0%N) ->
       (c_run x0 = true -> processed_items x ++ [Full m g] ++ c_in x0 = c_rx x0) -> Inv4 (process m g ua x0)).
    { intros m g x0 J1 J2 J3 J4 J5 J6 J7. destruct (process_fields m g ua x0 J1) as (F1 & F2 & F3 & F4 & F5 & F6 & o & F7 & F8 & F9).
      constructor.
      - now rewrite F3, F4.
      - rewrite F5, J3. discriminate.
      - rewrite F4, F1, F2. intros J. unfold processed_items. rewrite F7, map_app, J2. cbn [map fst snd].
        rewrite <- app_assoc. now apply J7.
      - intros m' k0 o' Hin. rewrite F7 in Hin. apply in_app_or in Hin. destruct Hin as [Hin|[Hin|[]]].
        + rewrite J2 in Hin. eapply P4; eauto.
        + injection Hin as <- -> <-. destruct (F9 (J6 k0 eq_refl) 0) as [G1 G2]. pose proof (F8 (F9 (J6 k0 eq_refl))) as G.
          destruct (mem (ep_name m) (c_eps x0)); auto.
      - rewrite F1. intros m' k0 Hin. eapply P5; eauto. }
    destruct (c_in x) as [|[m g|m|] r] eqn:Ei; [destruct eof; [|discriminate]| | |]; injection H as <-; apply gen;
      try (eapply Inv1_ext; [..|exact I1]; reflexivity); cbn; auto; try discriminate.
    + now rewrite Ei.
    + intros k0 ->. eapply P5. rewrite ?Ei. now left.
  - (* close *) destruct I4 as [P1 P2 P3 P4 P5]. constructor; cbn; auto; try discriminate; try congruence. intros; contradiction.
  - (* answer *) unfold push_in. cbn [c_open set_out]. destruct (c_open x) eqn:Eo; [|now apply (Inv4_ext x)].
    destruct I4 as [P1 P2 P3 P4 P5]. constructor; cbn; auto.
    + intros Hb. destruct (P2 Hb) as (E1 & _). congruence.
    + intros Hr. unfold processed_items in *. cbn. rewrite app_assoc. now rewrite P3.
    + intros m' k0 Hin. apply in_app_or in Hin. destruct Hin as [Hin|[Hin|[]]]; [eauto|discriminate].
  - (* broadcast *) unfold push_in. destruct (c_open x) eqn:Eo; [|now apply (Inv4_ext x)].
    destruct I4 as [P1 P2 P3 P4 P5]. constructor; cbn; auto.
    + intros Hb. destruct (P2 Hb) as (E1 & _). congruence.
    + intros Hr. unfold processed_items in *. cbn. rewrite app_assoc. now rewrite P3.
    + intros m' k0 Hin. apply in_app_or in Hin. destruct Hin as [Hin|[Hin|[]]]; [eauto|]. now injection Hin as <- _.
  - (* crash *) unfold push_in. cbn [c_open set_out]. destruct (c_open x) eqn:Eo; [|now apply (Inv4_ext x)].
    destruct I4 as [P1 P2 P3 P4 P5]. constructor; cbn [c_open c_run c_born c_log c_in c_rx set_rx set_in set_out]; auto.
    + intros Hb. destruct (P2 Hb) as (E1 & _). congruence.
    + intros Hr. unfold processed_items in *. cbn [c_log set_rx set_in set_out]. rewrite app_assoc. now rewrite P3.
    + intros m' k0 Hin. apply in_app_or in Hin. destruct Hin as [Hin|[Hin|[]]]; [eauto|].
      destruct (j mod chunk_size =? 0); discriminate.
Qed.

Lemma Inv4_reached P s c : reached P s -> Inv4 (s_cl s c).
Proof.
  intros HR. apply (reached_ind P (fun s => Inv4 (s_cl s c))) in HR; [exact HR| |].
  - constructor; cbn; auto; intros; contradiction.
  - intros s0 l s1 HR0 I _ E. destruct (step_local c l s0 s1 E) as [[-> _]|L]; [exact I|].
    eapply Inv4_local; eauto. eapply Inv1_reached; eauto.
Qed.

Theorem fifo P s c : reached P s -> c_run (s_cl s c) = true ->
  processed_items (s_cl s c) ++ c_in (s_cl s c) = c_rx (s_cl s c).
Proof. intros HR. apply (f_fifo _ (Inv4_reached P s c HR)). Qed.

Theorem bcast_never_answer P s c m k o : reached P s -> In (m, GBcast k, o) (c_log (s_cl s c)) -> o = Unsolicited \/ o = Nobody.
Proof. intros HR. apply (f_bc _ (Inv4_reached P s c HR)). Qed.

(** What a step adds to the wire towards a client. *)
Lemma bcasts_app a b : bcasts (a ++ b) = bcasts a ++ bcasts b.
Proof. unfold bcasts. apply flat_map_app. Qed.

Lemma client_recv_rx eof ua x x' : Inv1 x -> client_recv eof ua x = Some x' -> c_rx x' = c_rx x /\ c_eps x' = c_eps x.
Proof.
  unfold client_recv. intros I E. destruct (negb (c_run x)); [discriminate|].
  assert (gen : forall m g x0, Inv1 x0 -> c_rx (process m g ua x0) = c_rx x0 /\ c_eps (process m g ua x0) = c_eps x0).
  { intros m g x0 J. destruct (process_fields m g ua x0 J) as (_ & F & _ & _ & _ & F' & _). auto. }
  destruct (c_in x) as [|[m g|m|] r]; [destruct eof; [|discriminate]| | |]; injection E as <-;
    match goal with |- context [process ?m ?g ua ?x0] =>
      destruct (gen m g x0 ltac:(eapply Inv1_ext; [..|exact I]; reflexivity)) as [-> ->] end; cbn; auto.
Qed.

Lemma rx_step P c l s s' : reached P s -> step l s = Some s' -> exists d, c_rx (s_cl s' c) = c_rx (s_cl s c) ++ d /\
  ((l = DispBcast /\ is_accepted (s_conn s c) = true /\ c_open (s_cl s c) = true /\
    exists n p, s_disp s' = s_disp s ++ [(n, p)] /\ d = [Full {| req_id := 0; ep_name := n; payload := p |} (GBcast (length (s_disp s)))])
   \/ (bcasts d = [] /\ (l = DispBcast -> is_accepted (s_conn s c) && c_open (s_cl s c) = false))) .
Proof.
  intros HR E. pose proof (Inv1_reached P s c HR) as I1.
  assert (HD : l = DispBcast \/ l <> DispBcast) by (destruct l; (now left) || (right; discriminate)).
  destruct HD as [->|HD].
  - cbn in E. destruct (negb (s_up s)); [discriminate|]. destruct (rev (s_queue s)) as [|[n p] rq]; [discriminate|].
    injection E as <-. cbn. destruct (is_accepted (s_conn s c)) eqn:Ea.
    + unfold push_in. destruct (c_open (s_cl s c)) eqn:Eo; cbn.
      * eexists. split; [reflexivity|]. left. repeat split; auto. exists n, p. auto.
      * exists []. rewrite app_nil_r. split; [reflexivity|]. right. auto.
    + exists []. rewrite app_nil_r. split; [reflexivity|]. right. auto.
  - destruct (step_local c l s s' E) as [[-> _]|L].
    { exists []. rewrite app_nil_r. split; [reflexivity|right; split; [reflexivity|contradiction]]. }
    clear E. revert L HD. generalize (s_cl s' c) (ccalls c s'). intros x' k' L HD.
    destruct L; cbn [c_rx set_flags set_eps set_next set_reqs push_out set_out set_pending set_in cleanup];
      try (exists []; rewrite app_nil_r; split; [reflexivity|right; split; [reflexivity|discriminate]]).
    + exists []. rewrite app_nil_r. destruct (client_recv_rx _ _ _ _ I1 H) as [-> _]. split; [reflexivity|].
      right; split; [reflexivity|discriminate].
    + unfold push_in. destruct (c_open _); cbn [c_rx set_rx set_in set_out]; [|exists []; rewrite app_nil_r; split; [reflexivity|right; split; [reflexivity|discriminate]]].
      eexists. split; [reflexivity|]. right; split; [reflexivity|discriminate].
    + contradiction.
    + unfold push_in. destruct (c_open _); cbn [c_rx set_rx set_in set_out]; [|exists []; rewrite app_nil_r; split; [reflexivity|right; split; [reflexivity|discriminate]]].
      eexists. split; [reflexivity|]. right; split; [|discriminate]. unfold bcasts. cbn [flat_map].
      destruct (j mod chunk_size =? 0); reflexivity.
Qed.

(** Connections only move forward. *)
Lemma client_recv_flags eof ua x x' : Inv1 x -> client_recv eof ua x = Some x' -> c_born x' = c_born x /\ (c_open x = false -> c_open x' = false).
Proof.
  unfold client_recv. intros I E. destruct (negb (c_run x)); [discriminate|].
  assert (gen : forall m g x0, Inv1 x0 -> c_born (process m g ua x0) = c_born x0 /\ c_open (process m g ua x0) = c_open x0).
  { intros m g x0 J. destruct (process_fields m g ua x0 J) as (_ & _ & F & _ & F' & _). auto. }
  destruct (c_in x) as [|[m g|m|] r]; [destruct eof; [|discriminate]| | |]; injection E as <-;
    match goal with |- context [process ?m ?g ua ?x0] =>
      destruct (gen m g x0 ltac:(eapply Inv1_ext; [..|exact I]; reflexivity)) as [-> ->] end; cbn; auto.
Qed.

Lemma flags_local c l x k x' k' : local c l x k x' k' -> Inv1 x ->
  (c_born x = true -> c_born x' = true) /\ (c_born x = true -> c_open x = false -> c_open x' = false).
Proof.
  intros L I; destruct L; try (unfold push_in; destruct (c_open _); cbn; auto; fail); cbn; auto.
  - split; congruence.
  - destruct (client_recv_flags _ _ _ _ I H) as [-> F]. auto.
  - unfold push_in. cbn [c_open set_out]. destruct (c_open x) eqn:Eo; cbn; auto. split; [auto|congruence].
  - unfold push_in. destruct (c_open x) eqn:Eo; cbn; auto. split; [auto|congruence].
  - unfold push_in. cbn [c_open set_out]. destruct (c_open x) eqn:Eo; cbn; auto. split; [auto|congruence].
Qed.

Lemma flags_step P l s s' c : reached P s -> step l s = Some s' ->
  (c_born (s_cl s c) = true -> c_born (s_cl s' c) = true) /\
  (c_born (s_cl s c) = true -> c_open (s_cl s c) = false -> c_open (s_cl s' c) = false).
Proof.
  intros HR E. destruct (step_local c l s s' E) as [[-> _]|L]; [auto|]. eapply flags_local; eauto. eapply Inv1_reached; eauto.
Qed.

Ltac conn_other H := cbn; rewrite ?upd_other by (apply not_eq_sym; exact H); auto.

Lemma conn_step l s s' c : step l s = Some s' ->
  s_conn s' c = s_conn s c \/ (s_conn s' c = Backlog /\ c_born (s_cl s c) = false /\ c_born (s_cl s' c) = true) \/
  (s_conn s c = Backlog /\ s_conn s' c = Accepted) \/ (s_conn s c = Accepted /\ s_conn s' c = Closed).
Proof.
  destruct l as [c'|c'|c' n|n|c' n d|c' r ok|c' r|c' r|c' ua|c'|c' n d|c' i|c'|c' ans|c'|n d| | |c' d j]; cbn [step]; intros E.
  - destruct (c_born (s_cl s c') || negb (s_up s)) eqn:B; [discriminate|]. apply orb_false_iff in B. destruct B as [B _].
    injection E as <-. destruct (Nat.eq_dec c' c) as [->|H]; [|left; conn_other H]. right. left. cbn. now rewrite !upd_same.
  - destruct (s_up s); [|discriminate]. destruct (s_conn s c') eqn:Ec; try discriminate. injection E as <-.
    destruct (Nat.eq_dec c' c) as [->|H]; [|left; conn_other H]. right. right. left. cbn. now rewrite upd_same.
  - injection E as <-. now left.
  - injection E as <-. now left.
  - destruct (negb _); [discriminate|]. injection E as <-. now left.
  - destruct (nth_error _ _) as [q|]; [|discriminate]. destruct (r_stage q); try discriminate. destruct (_ && _); injection E as <-; now left.
  - destruct (nth_error _ _) as [q|]; [|discriminate]. destruct (r_stage q); try discriminate. injection E as <-; now left.
  - destruct (nth_error _ _) as [q|]; [|discriminate]. destruct (in_call q); try discriminate. injection E as <-; now left.
  - destruct (client_recv _ _ _); [|discriminate]. injection E as <-. now left.
  - injection E as <-. now left.
  - destruct (_ && _); [|discriminate]. injection E as <-. now left.
  - destruct (c_open _); [|discriminate]. injection E as <-. now left.
  - destruct (_ || _); [discriminate|]. injection E as <-. now left.
  - destruct (s_up s); [|discriminate]. destruct (s_conn s c') eqn:Ec; try discriminate.
    destruct (c_out (s_cl s c')) as [|[m g|m|] r]; [discriminate| | |].
    + destruct (mem _ _); [destruct ans|]; injection E as <-; now left.
    + injection E as <-. destruct (Nat.eq_dec c' c) as [->|H]; [|left; conn_other H]. right. right. right. cbn. now rewrite upd_same.
    + injection E as <-. destruct (Nat.eq_dec c' c) as [->|H]; [|left; conn_other H]. right. right. right. cbn. now rewrite upd_same.
  - destruct (s_up s); [|discriminate]. destruct (s_conn s c') eqn:Ec; try discriminate. destruct (c_open _); [discriminate|]. injection E as <-.
    destruct (Nat.eq_dec c' c) as [->|H]; [|left; conn_other H]. right. right. right. cbn. now rewrite upd_same.
  - injection E as <-. now left.
  - destruct (negb _); [discriminate|]. destruct (rev _) as [|[]]; [discriminate|]. injection E as <-. now left.
  - destruct (s_up s); [|discriminate]. injection E as <-. now left.
  - destruct (s_up s); [|discriminate]. destruct (s_conn s c'); try discriminate. destruct (c_out _) as [|[m g|m|] r]; try discriminate.
    destruct (_ && _); [|discriminate]. injection E as <-. now left.
Qed.

Lemma conn_born P s c : reached P s -> s_conn s c <> NoConn -> c_born (s_cl s c) = true.
Proof.
  intros HR. refine (reached_ind P (fun s => s_conn s c <> NoConn -> c_born (s_cl s c) = true) _ _ s HR).
  - cbn. congruence.
  - intros s0 l s1 HR0 I _ E Hn. destruct (flags_step P l s0 s1 c HR0 E) as [F _].
    destruct (conn_step l s0 s1 c E) as [C|[(_ & _ & C)|[(C & _)|(C & _)]]]; auto; apply F, I; congruence.
Qed.

Lemma disp_step l s s' : step l s = Some s' -> exists t, s_disp s' = s_disp s ++ t /\ (l = DispBcast -> length t = 1) /\ (l <> DispBcast -> t = []).
Proof.
  intros E. assert (HD : l = DispBcast \/ l <> DispBcast) by (destruct l; (now left) || (right; discriminate)).
  destruct HD as [->|HD].
  - cbn in E. destruct (negb _); [discriminate|]. destruct (rev _) as [|[n p] rq]; [discriminate|]. injection E as <-. cbn.
    eexists. split; [reflexivity|]. split; [reflexivity|congruence].
  - exists []. rewrite app_nil_r. split; [|split; [contradiction|reflexivity]].
    destruct l as [c'|c'|c' n|n|c' n d|c' r ok|c' r|c' r|c' ua|c'|c' n d|c' i|c'|c' ans|c'|n d| | |c' d j]; cbn [step] in E; try contradiction;
    repeat match type of E with
    | (if ?b then _ else _) = _ => destruct b; try discriminate
    | match ?b with _ => _ end = _ => destruct b; try discriminate
    end; injection E as <-; reflexivity.
Qed.

(** Every broadcast dispatched while the client is connected is put on its wire, once, in dispatch order. *)
Theorem bcast_complete P ls : forall s s' c, reached P s -> Forall P ls -> run ls s = Some s' ->
  s_conn s c = Accepted -> s_conn s' c = Accepted -> c_open (s_cl s' c) = true ->
  bcasts (c_rx (s_cl s' c)) = bcasts (c_rx (s_cl s c)) ++ seq (length (s_disp s)) (length (s_disp s') - length (s_disp s)).
Proof.
  induction ls as [|l ls IH]; intros s s' c HR HF E A A' O; cbn [run] in E.
  - injection E as <-. rewrite Nat.sub_diag. cbn. now rewrite app_nil_r.
  - inversion HF as [|? ? Hl HF' ]; subst. destruct (step l s) as [s1|] eqn:E1; [|discriminate].
    assert (HR1 : reached P s1) by (eapply reached_step; eauto).
    assert (closed : forall ls s s', reached P s -> Forall P ls -> run ls s = Some s' -> s_conn s c = Closed -> s_conn s' c = Closed).
    { clear - c. intros ls. induction ls as [|l ls IH]; cbn [run]; intros s s' HR HF E C; [congruence|].
      inversion HF; subst. destruct (step l s) as [s1|] eqn:E1; [|discriminate]. apply (IH s1 s'); auto.
      - eapply reached_step; eauto.
      - destruct (conn_step l s s1 c E1) as [D|[(_ & D & _)|[(D & _)|(D & _)]]]; try congruence.
        assert (c_born (s_cl s c) = true) by (apply (conn_born P); [assumption|congruence]). congruence. }
    assert (shut : forall ls s s', reached P s -> Forall P ls -> run ls s = Some s' -> c_born (s_cl s c) = true ->
              c_open (s_cl s c) = false -> c_open (s_cl s' c) = false).
    { clear - c. intros ls. induction ls as [|l ls IH]; cbn [run]; intros s s' HR HF E B C; [congruence|].
      inversion HF; subst. destruct (step l s) as [s1|] eqn:E1; [|discriminate].
      destruct (flags_step P l s s1 c HR E1) as [F1 F2]. apply (IH s1 s'); auto. eapply reached_step; eauto. }
    assert (B : c_born (s_cl s c) = true) by (apply (conn_born P); [assumption|congruence]).
    assert (A1 : s_conn s1 c = Accepted).
    { destruct (conn_step l s s1 c E1) as [D|[(_ & D & _)|[(D & _)|(_ & D)]]]; try congruence.
      rewrite (closed ls s1 s') in A'; auto; discriminate. }
    assert (O0 : c_open (s_cl s c) = true).
    { destruct (c_open (s_cl s c)) eqn:O0; [reflexivity|]. rewrite (shut (l :: ls) s s') in O; auto. cbn [run]. now rewrite E1. }
    rewrite (IH s1 s' c HR1 HF' E A1 A' O).
    destruct (rx_step P c l s s1 HR E1) as (d & -> & D). rewrite bcasts_app, <- app_assoc. f_equal.
    destruct (disp_step l s s1 E1) as (t & Ht & Ht1 & Ht2).
    assert (mono : forall ls s s', run ls s = Some s' -> length (s_disp s) <= length (s_disp s')).
    { clear. induction ls as [|l ls IH]; cbn [run]; intros s s' E; [injection E as <-; lia|].
      destruct (step l s) as [s1|] eqn:E1; [|discriminate]. destruct (disp_step l s s1 E1) as (t & Ht & _).
      apply IH in E. rewrite Ht, app_length in E. lia. }
    pose proof (mono _ _ _ E) as Hm.
    destruct D as [(-> & _ & _ & n & p & Hd & ->)|(Db & Dn)].
    + cbn [bcasts flat_map app]. rewrite Ht, app_length, (Ht1 eq_refl) in *.
      replace (length (s_disp s') - length (s_disp s)) with (S (length (s_disp s') - (length (s_disp s) + 1))) by lia.
      cbn. now rewrite Nat.add_1_r.
    + rewrite Db. cbn. assert (HD : l <> DispBcast).
      { intros ->. specialize (Dn eq_refl). rewrite A, O0 in Dn. discriminate. }
      rewrite Ht, (Ht2 HD), app_nil_r. reflexivity.
Qed.

(** What is on the wire under a dispatch number is that broadcast; nobody gets one twice. *)
Record Inv5 (s : sys) (c : nat) : Prop := {
  b_msg : forall m k, In (Full m (GBcast k)) (c_rx (s_cl s c)) ->
            req_id m = 0%N /\ nth_error (s_disp s) k = Some (ep_name m, payload m);
  b_once : NoDup (bcasts (c_rx (s_cl s c)));
  b_bound : forall k, In k (bcasts (c_rx (s_cl s c))) -> k < length (s_disp s);
}.

Lemma NoDup_snoc {A} (l : list A) x : NoDup l -> ~ In x l -> NoDup (l ++ [x]).
Proof.
  intros H Hn. induction l as [|y l IH]; cbn; [constructor; [auto|constructor]|]. inversion H; subst. constructor.
  - intros Hin. apply in_app_or in Hin. destruct Hin as [Hin|[Hin|[]]]; [auto|]. apply Hn. now left.
  - apply IH; auto. intros Hin. apply Hn. now right.
Qed.

Lemma bcasts_in k l : In k (bcasts l) <-> exists m, In (Full m (GBcast k)) l.
Proof.
  unfold bcasts. rewrite in_flat_map. split.
  - intros (i & Hi & Hk). destruct i as [m [| |k'| | |]|m|]; cbn in Hk; try contradiction. destruct Hk as [->|[]]. eauto.
  - intros (m & Hm). exists (Full m (GBcast k)). split; [exact Hm|now left].
Qed.

Lemma Inv5_reached P s c : reached P s -> Inv5 s c.
Proof.
  intros HR. apply (reached_ind P (fun s => Inv5 s c)) in HR; [exact HR| |].
  - constructor; cbn; try (intros; contradiction). constructor.
  - intros s0 l s1 HR0 [P1 P2 P3] _ E. destruct (rx_step P c l s0 s1 HR0 E) as (d & Hd & D).
    destruct (disp_step l s0 s1 E) as (t & Ht & _). destruct D as [(_ & _ & _ & n & p & Hdd & ->)|(Db & _)].
    + constructor; rewrite Hd.
      * intros m k Hin. apply in_app_or in Hin. destruct Hin as [Hin|[Hin|[]]].
        -- destruct (P1 _ _ Hin) as [? Hn]. split; [assumption|]. rewrite Ht, nth_error_app1; [exact Hn|apply nth_error_Some; congruence].
        -- injection Hin as <- <-. split; [reflexivity|]. cbn. rewrite Hdd, nth_error_app2, Nat.sub_diag by lia. reflexivity.
      * rewrite bcasts_app. cbn. apply NoDup_snoc; [exact P2|]. intros Hin. apply P3 in Hin. lia.
      * intros k Hin. rewrite bcasts_app in Hin. apply in_app_or in Hin. rewrite Hdd, app_length. cbn in *.
        destruct Hin as [Hin|[<-|[]]]; [apply P3 in Hin|]; lia.
    + constructor; rewrite Hd.
      * intros m k Hin. apply in_app_or in Hin. destruct Hin as [Hin|Hin].
        -- destruct (P1 _ _ Hin) as [? Hn]. split; [assumption|]. rewrite Ht, nth_error_app1; [exact Hn|apply nth_error_Some; congruence].
        -- exfalso. assert (Hk : In k (bcasts d)) by (apply bcasts_in; eauto). rewrite Db in Hk. contradiction.
      * now rewrite bcasts_app, Db, app_nil_r.
      * intros k Hin. rewrite bcasts_app, Db, app_nil_r in Hin. apply P3 in Hin. rewrite Ht, app_length. lia.
Qed.

Theorem bcast_content P s c m k : reached P s -> In (Full m (GBcast k)) (c_rx (s_cl s c)) ->
  nth_error (s_disp s) k = Some (ep_name m, payload m).
Proof. intros HR H. now apply (b_msg s c (Inv5_reached P s c HR)). Qed.

Theorem bcast_once P s c : reached P s -> NoDup (bcasts (c_rx (s_cl s c))).
Proof. intros HR. apply (b_once s c (Inv5_reached P s c HR)). Qed.

(** Every broadcast made is dispatched once or still queued. *)
Theorem bcast_conserved P s : reached P s -> Permutation (s_made s) (s_disp s ++ s_queue s).
Proof.
  intros HR. apply (reached_ind P (fun s => Permutation (s_made s) (s_disp s ++ s_queue s))) in HR; [exact HR|constructor|].
  intros s0 l s1 _ I _ E.
  destruct l as [c'|c'|c' n|n|c' n d|c' r ok|c' r|c' r|c' ua|c'|c' n d|c' i|c'|c' ans|c'|n d| | |c' d j]; cbn [step] in E;
    repeat match type of E with
    | (if ?b then _ else _) = _ => destruct b; try discriminate
    | match rev (s_queue s0) with _ => _ end = _ => destruct (rev (s_queue s0)) as [|[n d] rq] eqn:Eq; try discriminate
    | match ?b with _ => _ end = _ => destruct b; try discriminate
    end; injection E as <-; try exact I; cbn.
  - rewrite app_assoc. now apply Permutation_app_tail.
  - rewrite I. apply (f_equal (@rev _)) in Eq. rewrite rev_involutive in Eq. cbn in Eq. rewrite Eq.
    rewrite <- app_assoc. apply Permutation_app_head. apply Permutation_app_comm.
Qed.

(** The worker hands a broadcast to the endpoint of its name. *)
Lemma log_step P c l s s' : reached P s -> step l s = Some s' ->
  (forall n, mem n (c_eps (s_cl s c)) = true -> mem n (c_eps (s_cl s' c)) = true) /\
  exists new, c_log (s_cl s' c) = c_log (s_cl s c) ++ new /\
    forall m k o, In (m, GBcast k, o) new -> o = if mem (ep_name m) (c_eps (s_cl s c)) then Unsolicited else Nobody.
Proof.
  intros HR E. pose proof (Inv1_reached P s c HR) as I1. pose proof (Inv4_reached P s c HR) as I4.
  destruct (step_local c l s s' E) as [[-> _]|L].
  { split; [auto|]. exists []. rewrite app_nil_r. split; [reflexivity|intros; contradiction]. }
  clear E. revert L. generalize (s_cl s' c) (ccalls c s'). intros x' k' L.
  assert (nothing : forall y, c_eps y = c_eps (s_cl s c) -> c_log y = c_log (s_cl s c) ->
     (forall n, mem n (c_eps (s_cl s c)) = true -> mem n (c_eps y) = true) /\
     exists new, c_log y = c_log (s_cl s c) ++ new /\
       forall m k o, In (m, GBcast k, o) new -> o = if mem (ep_name m) (c_eps (s_cl s c)) then Unsolicited else Nobody).
  { intros y -> ->. split; [auto|]. exists []. rewrite app_nil_r. split; [reflexivity|intros; contradiction]. }
  destruct L; try (apply nothing; reflexivity); try (unfold push_in; destruct (c_open _); apply nothing; reflexivity).
  - split.
    + intros n' Hn. cbn. unfold mem in *. cbn. rewrite Hn. now rewrite orb_true_r.
    + exists []. rewrite app_nil_r. split; [reflexivity|intros; contradiction].
  - unfold client_recv in H. destruct (negb (c_run x)); [discriminate|].
    assert (gen : forall m g x0, Inv1 x0 -> c_log x0 = c_log x -> c_eps x0 = c_eps x -> (forall k0, g = GBcast k0 -> req_id m = 0%N) ->
      (forall n, mem n (c_eps x) = true -> mem n (c_eps (process m g ua x0)) = true) /\
      exists new, c_log (process m g ua x0) = c_log x ++ new /\
       forall m k o, In (m, GBcast k, o) new -> o = if mem (ep_name m) (c_eps x) then Unsolicited else Nobody).
    { intros m g x0 J1 J2 J3 J4. destruct (process_fields m g ua x0 J1) as (_ & _ & _ & _ & _ & F6 & o & F7 & F8 & F9).
      rewrite F6, F7, J3, J2. split; [auto|]. eexists. split; [reflexivity|]. intros m' k0 o' [Hin|[]].
      injection Hin as <- -> <-. rewrite <- J3. apply F8. apply F9. eapply J4; eauto. }
    destruct (c_in x) as [|[m g|m|] r] eqn:Ei; [destruct eof; [|discriminate]| | |]; injection H as <-; apply gen;
      try (eapply Inv1_ext; [..|exact I1]; reflexivity); try reflexivity; try discriminate.
    intros k0 ->. apply (f_bid x I4 m k0). rewrite Ei. now left.
Qed.

Theorem bcast_handed_over P ls : forall s s' c n, reached P s -> Forall P ls -> run ls s = Some s' ->
  mem n (c_eps (s_cl s c)) = true ->
  exists new, c_log (s_cl s' c) = c_log (s_cl s c) ++ new /\
    forall m k o, In (m, GBcast k, o) new -> ep_name m = n -> o = Unsolicited.
Proof.
  induction ls as [|l ls IH]; intros s s' c n HR HF E M; cbn [run] in E.
  - injection E as <-. exists []. rewrite app_nil_r. split; [reflexivity|intros; contradiction].
  - inversion HF as [|? ? Hl HF']; subst. destruct (step l s) as [s1|] eqn:E1; [|discriminate].
    destruct (log_step P c l s s1 HR E1) as [Hm (new1 & H1 & H2)].
    destruct (IH s1 s' c n) as (new2 & H3 & H4); auto; [eapply reached_step; eauto|].
    exists (new1 ++ new2). split; [now rewrite H3, H1, app_assoc|]. intros m k o Hin En.
    apply in_app_or in Hin. destruct Hin as [Hin|Hin]; [|eauto]. rewrite (H2 _ _ _ Hin), En, M. reflexivity.
Qed.

(** ** Order of broadcasts (C08) *)
Theorem dispatch_all_reverses s : s_up s = true ->
  exists s', run (repeat DispBcast (length (s_queue s))) s = Some s' /\ s_queue s' = [] /\ s_disp s' = s_disp s ++ rev (s_queue s).
Proof.
  remember (length (s_queue s)) as n eqn:En. revert s En. induction n as [|n IH]; intros s En Hu.
  - destruct (s_queue s) as [|b q] eqn:Eq; [|discriminate]. exists s. cbn. rewrite app_nil_r. auto.
  - cbn [repeat run step]. rewrite Hu. cbn [negb]. destruct (rev (s_queue s)) as [|[nm d] rq] eqn:Er.
    + apply (f_equal (@length _)) in Er. rewrite rev_length in Er. cbn in Er. lia.
    + match goal with |- context [run _ ?t] => destruct (IH t) as (s' & H1 & H2 & H3) end; cbn.
      * apply (f_equal (@length _)) in Er. rewrite rev_length in Er. cbn in Er. rewrite rev_length. lia.
      * reflexivity.
      * exists s'. split; [exact H1|]. split; [exact H2|]. rewrite H3. cbn. rewrite rev_involutive, <- app_assoc. reflexivity.
Qed.

(** Broadcasts already dispatched come before everything dispatched later. *)
Theorem dispatched_first ls : forall s s', run ls s = Some s' -> exists t, s_disp s' = s_disp s ++ t.
Proof.
  induction ls as [|l ls IH]; cbn [run]; intros s s' E; [injection E as <-; exists []; now rewrite app_nil_r|].
  destruct (step l s) as [s1|] eqn:E1; [|discriminate]. destruct (disp_step l s s1 E1) as (t & Ht & _).
  destruct (IH _ _ E) as (t2 & ->). exists (t ++ t2). now rewrite Ht, app_assoc.
Qed.

Lemma made_step l s s' : step l s = Some s' -> exists t, s_made s' = s_made s ++ t.
Proof.
  intros E. destruct l as [c'|c'|c' n|n|c' n d|c' r ok|c' r|c' r|c' ua|c'|c' n d|c' i|c'|c' ans|c'|n d| | |c' d j]; cbn [step] in E;
    repeat match type of E with
    | (if ?b then _ else _) = _ => destruct b; try discriminate
    | match ?b with _ => _ end = _ => destruct b; try discriminate
    end; injection E as <-; try (exists []; cbn; now rewrite app_nil_r). cbn. eauto.
Qed.
Lemma made_run ls : forall s s', run ls s = Some s' -> exists t, s_made s' = s_made s ++ t.
Proof.
  induction ls as [|l ls IH]; cbn [run]; intros s s' E; [injection E as <-; exists []; now rewrite app_nil_r|].
  destruct (step l s) as [s1|] eqn:E1; [|discriminate]. destruct (made_step l s s1 E1) as (t & Ht).
  destruct (IH _ _ E) as (t2 & ->). exists (t ++ t2). now rewrite Ht, app_assoc.
Qed.

(** If the queue is empty at some moment, what was made before is dispatched before what is made after. *)
Theorem ordered_across_empty P ls s s' : reached P s -> Forall P ls -> run ls s = Some s' -> s_queue s = [] ->
  exists later made_later, s_disp s' = s_disp s ++ later /\ s_made s' = s_made s ++ made_later /\
    Permutation (s_disp s) (s_made s) /\ Permutation made_later (later ++ s_queue s').
Proof.
  intros HR HF E Hq. destruct (dispatched_first ls s s' E) as (t & Ht). destruct (made_run ls s s' E) as (u & Hu).
  exists t, u. split; [exact Ht|]. split; [exact Hu|].
  pose proof (bcast_conserved P s HR) as C. rewrite Hq, app_nil_r in C. split; [now symmetry|].
  assert (HR' : reached P s').
  { destruct HR as (l0 & HF0 & E0). exists (l0 ++ ls). split; [now apply Forall_app|]. now rewrite run_app, E0. }
  pose proof (bcast_conserved P s' HR') as C'. rewrite Ht, Hu, <- app_assoc in C'.
  apply (Permutation_app_inv_l (s_made s)). rewrite C'. now apply Permutation_app_tail.
Qed.

(** ** Progress of answers (C05) *)


Record Inv6 (x : client) (k : list (msg * option bytes)) : Prop := {
  a_prog : forall r q d, nth_error (c_reqs x) r = Some q -> In (msg_of q, Some d) k -> c_open x = true -> r_held q = true ->
             r_val q = Unready -> answered x q d \/ missed x q;
}.

Lemma answered_ext x y q q' d : (forall i, In i (c_in x) -> In i (c_in y)) -> msg_of q' = msg_of q -> answered x q d -> answered y q' d.
Proof.
  intros Hi Hm (g & H). exists g. pose proof (f_equal ep_name Hm) as H1. pose proof (f_equal req_id Hm) as H2. cbn in H1, H2.
  rewrite H1, H2. auto.
Qed.
Lemma missed_ext x y q q' : (forall i, In i (c_log x) -> In i (c_log y)) -> msg_of q' = msg_of q -> missed x q -> missed y q'.
Proof.
  intros Hi Hm (m & g & o & H1 & H2 & H3 & H4). exists m, g, o.
  pose proof (f_equal ep_name Hm) as E1. pose proof (f_equal req_id Hm) as E2. cbn in E1, E2. rewrite E1, E2. auto.
Qed.

(** Steps that do not take messages from the client's input. *)
Lemma Inv6_frame x x' k k' : Inv6 x k -> (forall i, In i (c_in x) -> In i (c_in x')) -> (forall i, In i (c_log x) -> In i (c_log x')) ->
  (forall r q d, nth_error (c_reqs x') r = Some q -> In (msg_of q, Some d) k' -> c_open x' = true -> r_held q = true -> r_val q = Unready ->
     answered x' q d \/ (c_open x = true /\ exists q0, nth_error (c_reqs x) r = Some q0 /\ msg_of q = msg_of q0 /\ In (msg_of q, Some d) k /\
     r_held q0 = true /\ r_val q0 = Unready)) -> Inv6 x' k'.
Proof.
  intros [H] Hi Hl Hr. constructor. intros r q d Hq Hk Ho Hh Hv.
  destruct (Hr r q d Hq Hk Ho Hh Hv) as [A|(Ho0 & q0 & E & Em & Hk0 & Hh0 & Hv0)]; [now left|].
  destruct (H r q0 d E) as [A|A]; auto; [congruence|left|right].
  - eapply answered_ext; [..|exact A]; auto.
  - eapply missed_ext; [..|exact A]; auto.
Qed.

Lemma Inv6_same x x' k : Inv6 x k -> (forall i, In i (c_in x) -> In i (c_in x')) -> c_log x' = c_log x -> c_reqs x' = c_reqs x ->
  c_open x' = c_open x -> Inv6 x' k.
Proof.
  intros I H1 H2 H3 H4. apply (Inv6_frame x x' k); auto; [now rewrite H2|]. rewrite H3, H4. intros r q d. right. eauto 8.
Qed.

Lemma Inv6_set x k r q q' : Inv6 x k -> nth_error (c_reqs x) r = Some q -> msg_of q' = msg_of q ->
  (r_held q' = true -> r_val q' = Unready -> r_held q = true /\ r_val q = Unready) ->
  Inv6 (set_reqs (set_nth r q' (c_reqs x)) x) k.
Proof.
  intros I Hq Hm Hh. apply (Inv6_frame x _ k); auto. cbn. intros r' q2 d E Hk Ho H1 H2. right. split; [exact Ho|].
  apply set_nth_case in E; [|eapply nth_error_lt; eauto]. destruct E as [[-> ->]|[_ E]]; [|eauto 8].
  exists q. destruct (Hh H1 H2). auto.
Qed.

Lemma born_local c l x k x' k' : local c l x k x' k' -> Inv1 x -> (c_born x = false -> c_reqs x = []) -> c_born x' = false -> c_reqs x' = [].
Proof.
  intros L I1 I0 B; destruct L; try match goal with |- context [push_in] => unfold push_in in *; cbn [c_open set_out] in *; destruct (c_open x) end; cbn in *; try (apply I0; exact B); try congruence;
    try (rewrite (I0 B) in *; destruct r; discriminate).
  unfold client_recv in H. destruct (negb (c_run x)); [discriminate|].
  assert (gen : forall m g x0, Inv1 x0 -> c_reqs x0 = c_reqs x -> c_born x0 = c_born x -> c_born (process m g ua x0) = false ->
             c_reqs (process m g ua x0) = []).
  { intros m g x0 J1 J2 J3. destruct (process_fields m g ua x0 J1) as (_ & _ & _ & _ & F1 & _). rewrite F1, J3. intros B'. specialize (I0 B').
    destruct (process_processed m g ua x0 J1) as [r1 q1 ua' H' H0| | | |]; cbn; try congruence.
    rewrite J2, I0 in H0. destruct r1; discriminate. }
  destruct (c_in x) as [|[m g|m|] r] eqn:Ei; [destruct eof; [|discriminate]| | |]; injection H as <-; revert B; apply gen;
      try (eapply Inv1_ext; [..|exact I1]; reflexivity); reflexivity.
Qed.

Lemma unborn_reqs P s c : reached P s -> c_born (s_cl s c) = false -> c_reqs (s_cl s c) = [].
Proof.
  intros HR. refine (reached_ind P (fun s => c_born (s_cl s c) = false -> c_reqs (s_cl s c) = []) _ _ s HR); [reflexivity|].
  intros s1 l s2 HR1 I Hl E. destruct (step_local c l s1 s2 E) as [[-> _]|L]; [exact I|].
  exact (born_local c l _ _ _ _ L (Inv1_reached P s1 c HR1) I).
Qed.

Lemma Inv6_local c l x k x' k' : local c l x k x' k' -> fair_to c l -> (c_born x = false -> c_reqs x = []) -> Inv1 x -> Inv2 x k -> Inv4 x -> Inv6 x k -> Inv6 x' k'.
Proof.
  intros L HF I0 I1 I2 I4 I6; destruct L; cbn in HF; try contradiction; try (now apply (Inv6_same x)).
  - (* connect *) destruct (f_born x I4 H) as (_ & E2 & E3 & E4). constructor. cbn. intros r q d Hq Hk _ _ _. exfalso.
    rewrite (I0 H) in Hq. destruct r; discriminate.
  - (* take *) apply (Inv6_frame x _ k); auto. cbn. intros r q d' E Hk Ho Hh Hv. right.
    destruct (Nat.lt_ge_cases r (length (c_reqs x))) as [Hlt|Hge].
    + rewrite nth_error_app1 in E by exact Hlt. split; [exact Ho|]. eauto 8.
    + exfalso. rewrite nth_error_app2 in E by exact Hge. destruct (r - length (c_reqs x)) as [|j]; [|destruct j; discriminate].
      cbn in E. injection E as <-. destruct (o_call x k I2 _ _ Hk) as [Hz|(r2 & q2 & Hq2 & Hm)].
      * cbn in Hz. pose proof (i_next x I1). lia.
      * pose proof (f_equal req_id Hm) as Hid. cbn in Hid. pose proof (i_id x I1 _ _ Hq2). pose proof (i_next x I1).
        apply nth_error_lt in Hq2. lia.
  - (* send *) apply (Inv6_same (set_reqs (set_nth r (with_stage Sent q) (c_reqs x)) x)); auto.
    apply (Inv6_set x k r q); auto.
  - (* sendfail *) apply (Inv6_set x k r q); auto; discriminate.
  - (* book *) apply (Inv6_same (set_reqs (set_nth r (with_stage Booked q) (c_reqs x)) x)); auto.
    apply (Inv6_set x k r q); auto.
  - (* drop *) apply (Inv6_set x k r q); auto; discriminate.
  - (* recv *) destruct ua as [d|]; [contradiction|]. unfold client_recv in H. destruct (negb (c_run x)); [discriminate|].
    assert (dead : forall m g x0, Inv1 x0 -> c_open x0 = false -> Inv6 (process m g None x0) k).
    { intros m g x0 J1 J2. constructor. intros r q d _ _ Ho. destruct (process_fields m g None x0 J1) as (_ & _ & F & _). congruence. }
    destruct (c_in x) as [|[m g|m|] r] eqn:Ei; [destruct eof; [|discriminate]| | |]; injection H as <-;
      try (apply dead; [eapply Inv1_ext; [..|exact I1]; reflexivity|reflexivity]).
    set (x0 := set_in r x).
    assert (J1 : Inv1 x0) by (eapply Inv1_ext; [..|exact I1]; reflexivity).
    assert (KK : forall q d r0, nth_error (c_reqs x) r0 = Some q -> In (msg_of q, Some d) k -> c_open x = true -> r_held q = true ->
                   r_val q = Unready -> (ep_name m = r_name q /\ req_id m = r_id q) \/ answered x0 q d \/ missed x q).
    { intros q d r0 Hq Hk Ho Hh Hv. destruct (a_prog x k I6 r0 q d Hq Hk Ho Hh Hv) as [(g0 & A)|A]; [|auto].
      rewrite Ei in A. destruct A as [A|A]; [|right; left; exists g0; exact A]. injection A as -> _. left. auto. }
    generalize (process_processed m g None x0 J1). generalize (process m g None x0). intros y HP.
    inversion HP as [r1 q1 ua' H H0 Hh H1 H2 H3 H4|r1 q1 ua' H H0 Hh H1 H2 H3 H4|ua' H H0|ua' H H0 H1|]; subst.
    + (* value *) constructor. cbn. intros r2 q2 d E Hk Ho Hh2 Hv2. apply set_nth_case in E; [|eapply nth_error_lt; eauto].
      destruct E as [[-> ->]|[Hr E]]; [discriminate|].
      destruct (KK q2 d r2 E Hk Ho Hh2 Hv2) as [[_ A]|[A|A]].
      * exfalso. apply Hr. pose proof (i_id x I1 _ _ E). pose proof (i_id x I1 _ _ H0). lia.
      * left. exact A.
      * right. eapply missed_ext; [..|exact A]; cbn; auto. intros i Hi. apply in_or_app. now left.
    + (* released *) constructor. cbn. intros r2 q2 d E Hk Ho Hh2 Hv2.
      destruct (KK q2 d r2 E Hk Ho Hh2 Hv2) as [[_ A]|[A|A]].
      * exfalso. pose proof (i_id x I1 _ _ E). pose proof (i_id x I1 _ _ H0). assert (r2 = r1) by lia. subst r2.
        cbn in H0. rewrite E in H0. injection H0 as <-. congruence.
      * left. exact A.
      * right. eapply missed_ext; [..|exact A]; cbn; auto. intros i Hi. apply in_or_app. now left.
    + constructor. cbn. intros r2 q2 d E Hk Ho Hh2 Hv2. destruct (KK q2 d r2 E Hk Ho Hh2 Hv2) as [[A1 A2]|[A|A]].
      * right. exists m, g, Nobody. repeat split; auto. apply in_or_app. right. now left.
      * left. exact A.
      * right. eapply missed_ext; [..|exact A]; cbn; auto. intros i Hi. apply in_or_app. now left.
    + constructor. cbn. intros r2 q2 d E Hk Ho Hh2 Hv2. destruct (KK q2 d r2 E Hk Ho Hh2 Hv2) as [[A1 A2]|[A|A]].
      * right. exists m, g, Unsolicited. repeat split; auto. apply in_or_app. right. now left.
      * left. exact A.
      * right. eapply missed_ext; [..|exact A]; cbn; auto. intros i Hi. apply in_or_app. now left.
  - (* close *) constructor. cbn. discriminate.
  - (* answer *) unfold push_in. cbn [c_open set_out]. destruct (c_open x) eqn:Eo.
    + apply (Inv6_frame x _ k); auto; cbn.
      * intros i Hi. apply in_or_app. now left.
      * intros r0 q0 d0 E Hk _ Hh Hv. apply in_app_or in Hk. destruct Hk as [Hk|[Hk|[]]]; [right; eauto 8|left].
        injection Hk as Hm <-. subst m. exists GAns. cbn. apply in_or_app. right. now left.
    + constructor. cbn. congruence.
  - (* no answer *) apply (Inv6_frame x _ k); auto; cbn. intros r0 q0 d0 E Hk Ho Hh Hv. right.
    apply in_app_or in Hk. destruct Hk as [Hk|[Hk|[]]]; [|discriminate]. eauto 8.
  - (* broadcast *) unfold push_in. destruct (c_open x) eqn:Eo; [|exact I6]. apply (Inv6_same x); auto.
    cbn. intros i Hi. apply in_or_app. now left.
Qed.

Lemma Inv6_reached s c : reached (fair_to c) s -> Inv6 (s_cl s c) (ccalls c s).
Proof.
  intros HR. refine (reached_ind (fair_to c) (fun s => Inv6 (s_cl s c) (ccalls c s)) _ _ s HR).
  - constructor. cbn. intros r q d E. destruct r; discriminate.
  - intros s1 l s2 HR1 I Hl E. destruct (step_local c l s1 s2 E) as [[-> ->]|L]; [exact I|].
    exact (Inv6_local c l _ _ _ _ L Hl (unborn_reqs _ s1 c HR1) (Inv1_reached _ s1 c HR1) (Inv2_reached c s1 HR1) (Inv4_reached _ s1 c HR1) I).
Qed.

Lemma nth_error_snoc {A} (l : list A) a r q : nth_error (l ++ [a]) r = Some q -> nth_error l r = Some q \/ (r = length l /\ a = q).
Proof.
  intros E. destruct (Nat.lt_ge_cases r (length l)) as [Hlt|Hge].
  - left. now rewrite nth_error_app1 in E.
  - rewrite nth_error_app2 in E by exact Hge. right. destruct (r - length l) as [|j] eqn:Ej; [|destruct j; discriminate].
    cbn in E. injection E as <-. split; [lia|reflexivity].
Qed.

(** The value of a request that was sent, while the connection is up. *)
Record Inv7 (x : client) : Prop := {
  v_err : forall r q, nth_error (c_reqs x) r = Some q -> r_val q = CommError -> r_stage q = Failed;
  v_brk : forall r q, nth_error (c_reqs x) r = Some q -> r_val q = BrokenPromise -> c_open x = false /\ c_born x = true;
}.
Lemma Inv7_set x r q q' : Inv7 x -> nth_error (c_reqs x) r = Some q -> (r_val q' = CommError -> r_stage q' = Failed) ->
  (r_val q' = BrokenPromise -> r_val q = BrokenPromise) -> Inv7 (set_reqs (set_nth r q' (c_reqs x)) x).
Proof.
  intros [H1 H2] Hq Hc Hb. pose proof (nth_error_lt _ _ _ Hq) as Hlt.
  constructor; cbn; intros r2 q2 E; apply set_nth_case in E; auto; destruct E as [[-> ->]|[_ E]]; eauto.
Qed.
Lemma Inv7_local c l x k x' k' : local c l x k x' k' -> Inv1 x -> Inv3 x -> Inv7 x -> Inv7 x'.
Proof.
  intros L I1 I3 I7; destruct L; try (now (destruct I7 as [H1 H2]; constructor)).
  - (* connect *) destruct I7 as [H1 H2]; constructor; cbn; auto. intros r q E V. destruct (H2 r q E V). congruence.
  - destruct I7 as [H1 H2]. constructor; cbn; intros r q E; apply nth_error_snoc in E; destruct E as [E|[_ <-]]; cbn; try discriminate; eauto.
  - destruct (Inv7_set x r q (with_stage Sent q) I7 H) as [H3 H4]; cbn; auto.
    + intros V. exfalso. destruct (i_call x I1 r q H); [unfold in_call; now rewrite H0|congruence].
    + constructor; auto.
  - apply (Inv7_set x r q); auto; discriminate.
  - destruct (Inv7_set x r q (with_stage Booked q) I7 H) as [H3 H4]; cbn; auto.
    + intros V. exfalso. destruct (i_call x I1 r q H); [unfold in_call; now rewrite H0|congruence].
    + constructor; auto.
  - apply (Inv7_set x r q); auto. cbn. eapply v_err; eauto.
  - unfold client_recv in H. destruct (negb (c_run x)); [discriminate|].
    assert (gen : forall m g x0, Inv1 x0 -> Inv7 x0 -> Inv7 (process m g ua x0)).
    { intros m g x0 J1 J7. destruct (process_processed m g ua x0 J1) as [r1 q1 ua' P1 P2| | | |]; try (now (destruct J7; constructor)).
      assert (J : Inv7 (set_reqs (set_nth r1 (with_val (Value (payload m)) q1) (c_reqs x0)) x0)) by (apply (Inv7_set x0 r1 q1); auto; discriminate).
      destruct J; constructor; auto. }
    destruct (c_in x) as [|[m g|m|] r] eqn:Ei; [destruct eof; [|discriminate]| | |]; injection H as <-; apply gen;
      try (eapply Inv1_ext; [..|exact I1]; reflexivity); destruct I7 as [H1 H2]; constructor; cbn; auto;
      intros r0 q0 E V; destruct (H2 r0 q0 E V); auto.
  - destruct I7 as [H1 H2]. constructor; cbn; auto. intros r q E V. apply broken_keeps in E. destruct E as (q0 & E0 & [->|[_ ->]]); eauto.
    discriminate.
  - unfold push_in. cbn [c_open set_out]. destruct (c_open x) eqn:Eo; destruct I7 as [H1 H2]; constructor; auto.
  - unfold push_in. destruct (c_open x) eqn:Eo; [|exact I7]. destruct I7 as [H1 H2]; constructor; auto.
  - unfold push_in. cbn [c_open set_out]. destruct (c_open x) eqn:Eo; destruct I7 as [H1 H2]; constructor; auto.
Qed.
Lemma Inv7_reached P s c : reached P s -> Inv7 (s_cl s c).
Proof.
  intros HR. refine (reached_ind P (fun s => Inv7 (s_cl s c)) _ _ s HR).
  - constructor; cbn; intros r q E; destruct r; discriminate.
  - intros s1 l s2 HR1 I Hl E. destruct (step_local c l s1 s2 E) as [[-> _]|L]; [exact I|].
    exact (Inv7_local c l _ _ _ _ L (Inv1_reached P s1 c HR1) (Inv3_reached P s1 c HR1) I).
Qed.

(** An answered request has its value, or the answer is under way, or it came too early. *)
Theorem answered_request c s r q d : reached (fair_to c) s -> request_of s c r q -> In (msg_of q, Some d) (calls_for c (r_id q) s) ->
  c_open (s_cl s c) = true -> r_held q = true ->
  r_val q = Value d \/ (r_val q = Unready /\ (answered (s_cl s c) q d \/ missed (s_cl s c) q)).
Proof.
  intros HR Hq Hc Ho Hh. pose proof Hc as Hk. rewrite ccalls_calls_for in Hk. apply filter_In in Hk. destruct Hk as [Hk _].
  destruct (r_val q) as [|d'| |] eqn:V.
  - right. split; [reflexivity|]. apply (a_prog _ _ (Inv6_reached s c HR) r); auto.
  - left. pose proof (response_of_request c s r q d' HR Hq V) as E. rewrite E in Hc. destruct Hc as [Hc|[]]. congruence.
  - exfalso. pose proof (v_err _ (Inv7_reached _ s c HR) r q Hq V) as Hs. pose proof (Inv2_reached c s HR) as I2.
    pose proof (i_id _ (Inv1_reached _ s c HR) r q Hq) as Hid. pose proof (o_cnt _ _ I2 (r_id q) ltac:(lia)) as Hcnt.
    assert (credit (r_id q) (s_cl s c) = 0).
    { unfold credit. replace (N.to_nat (r_id q) - 1) with r by lia. unfold request_of in Hq. rewrite Hq. unfold sent. now rewrite Hs. }
    assert (1 <= kocc (r_id q) (ccalls c s)); [|lia]. rewrite ccalls_calls_for in Hc. unfold kocc. destruct (filter _ _); [contradiction|cbn; lia].
  - exfalso. destruct (v_brk _ (Inv7_reached _ s c HR) r q Hq V). congruence.
Qed.


Lemma later_refl q : later q q. Proof. repeat split; auto. Qed.
Lemma later_trans a b d : later a b -> later b d -> later a d.
Proof. intros (A1 & A2 & A3 & A4) (B1 & B2 & B3 & B4). repeat split; [congruence|auto| |auto]. intros H. rewrite <- (A3 H). apply B3. now rewrite (A3 H). Qed.

Lemma later_set l r q q' : nth_error l r = Some q -> later q q' -> forall r2 q2, nth_error l r2 = Some q2 ->
  exists q3, nth_error (set_nth r q' l) r2 = Some q3 /\ later q2 q3.
Proof.
  intros Hq HL r2 q2 H2. destruct (Nat.eq_dec r2 r) as [->|Hn].
  - rewrite Hq in H2. injection H2 as <-. exists q'. split; [|exact HL]. apply set_nth_same. eapply nth_error_lt; eauto.
  - exists q2. split; [|apply later_refl]. rewrite set_nth_other; auto.
Qed.

Lemma broken_later_one l r q : nth_error l r = Some q -> forall pend, exists q', nth_error (broken pend l) r = Some q' /\ later q q'.
Proof.
  intros Hq pend. unfold broken. revert l q Hq. induction pend as [|e pend IH]; cbn [fold_left]; intros l q Hq; [exists q; auto using later_refl|].
  destruct (nth_error l (snd e)) as [q0|] eqn:E; [|eauto]. destruct (r_val q0) eqn:V; eauto.
  destruct (later_set l (snd e) q0 (with_val BrokenPromise q0) E) with (r2 := r) (q2 := q) as (q3 & H3 & H4); auto.
  - repeat split; auto. congruence.
  - destruct (IH _ _ H3) as (q4 & H5 & H6). exists q4. split; [exact H5|]. eapply later_trans; eauto.
Qed.

Lemma later_local c l x k x' k' : local c l x k x' k' -> Inv1 x -> forall r q, nth_error (c_reqs x) r = Some q ->
  exists q', nth_error (c_reqs x') r = Some q' /\ later q q'.
Proof.
  intros L I1; destruct L; cbn; try match goal with |- context [push_in] => unfold push_in; cbn [c_open set_out]; destruct (c_open x); cbn end; try (intros r0 q0 E0; exists q0; split; [exact E0|apply later_refl]).
  all: try (intros r0 q0 E0; exists q0; split; [now rewrite nth_error_app1 by (eapply nth_error_lt; eauto)|apply later_refl]).
  all: try (apply (later_set _ _ q); auto; repeat split; cbn; auto; congruence).
  - apply (later_set _ _ q); auto. repeat split; cbn; auto; intros; try congruence.
    exfalso. destruct (i_call x I1 r q H); [unfold in_call; now rewrite H0|congruence].
  - unfold client_recv in H. destruct (negb (c_run x)); [discriminate|].
    assert (gen : forall m g x0, Inv1 x0 -> c_reqs x0 = c_reqs x -> forall r q, nth_error (c_reqs x) r = Some q ->
              exists q', nth_error (c_reqs (process m g ua x0)) r = Some q' /\ later q q').
    { intros m g x0 J1 <-. destruct (process_processed m g ua x0 J1) as [r1 q1 ua' P1 P2 P3 P4 P5 P6 P7| | | |]; cbn;
        try (intros r0 q0 E0; exists q0; split; [exact E0|apply later_refl]).
      apply (later_set _ _ q1); auto. repeat split; cbn; auto. congruence. }
    destruct (c_in x) as [|[m g|m|] r] eqn:Ei; [destruct eof; [|discriminate]| | |]; injection H as <-; apply gen;
      try (eapply Inv1_ext; [..|exact I1]; reflexivity); reflexivity.
  - intros r0 q0 E0. now apply broken_later_one.
Qed.

Theorem later_run P ls : forall s s' c r q, reached P s -> Forall P ls -> run ls s = Some s' -> request_of s c r q ->
  exists q', request_of s' c r q' /\ later q q'.
Proof.
  induction ls as [|l ls IH]; intros s s' c r q HR HF E Hq; cbn [run] in E.
  - injection E as <-. exists q. auto using later_refl.
  - inversion HF as [|? ? Hl HF']; subst. destruct (step l s) as [s1|] eqn:E1; [|discriminate].
    assert (H1 : exists q1, request_of s1 c r q1 /\ later q q1).
    { unfold request_of in *. destruct (step_local c l s s1 E1) as [[-> _]|L]; [exists q; auto using later_refl|].
      exact (later_local c l _ _ _ _ L (Inv1_reached P s c HR) r q Hq). }
    destruct H1 as (q1 & Hq1 & L1). destruct (IH s1 s' c r q1) as (q2 & Hq2 & L2); auto; [eapply reached_step; eauto|].
    exists q2. split; [exact Hq2|]. eapply later_trans; eauto.
Qed.

(** Once the request is booked its answer is no longer missed. *)
Lemma log_local c l x k x' k' : local c l x k x' k' -> Inv1 x -> c_log x' = c_log x \/
  exists m g o, c_log x' = c_log x ++ [(m, g, o)] /\
    (o = Unsolicited \/ o = Nobody -> forall r, ~ In ((ep_name m, req_id m), r) (c_pending x)).
Proof.
  intros L I1; destruct L; cbn; try match goal with |- context [push_in] => unfold push_in; cbn [c_open set_out]; destruct (c_open x); cbn end; try (now left).
  unfold client_recv in H. destruct (negb (c_run x)); [discriminate|].
  assert (gen : forall m g x0, Inv1 x0 -> c_log x0 = c_log x -> c_pending x0 = c_pending x ->
     exists m' g' o, c_log (process m g ua x0) = c_log x ++ [(m', g', o)] /\
      (o = Unsolicited \/ o = Nobody -> forall r, ~ In ((ep_name m', req_id m'), r) (c_pending x))).
  { intros m g x0 J1 <- <-. destruct (process_processed m g ua x0 J1); cbn; do 3 eexists; (split; [reflexivity|]); auto; intros [C|C]; discriminate. }
  right. destruct (c_in x) as [|[m g|m|] r] eqn:Ei; [destruct eof; [|discriminate]| | |]; injection H as <-; apply gen;
      try (eapply Inv1_ext; [..|exact I1]; reflexivity); reflexivity.
Qed.

Lemma missed_msg x q q' : msg_of q' = msg_of q -> missed x q' -> missed x q.
Proof. intros E. apply missed_ext; auto. Qed.

Theorem not_missed P ls : forall s s' c r q q', reached P s -> Forall P ls -> run ls s = Some s' -> request_of s c r q ->
  r_stage q = Booked -> ~ missed (s_cl s c) q -> request_of s' c r q' -> r_val q' = Unready -> r_held q' = true -> ~ missed (s_cl s' c) q'.
Proof.
  induction ls as [|l ls IH]; intros s s' c r q q' HR HF E Hq Hs Hm Hq' Hv Hh; cbn [run] in E.
  - injection E as <-. unfold request_of in *. assert (q' = q) by congruence. now subst.
  - inversion HF as [|? ? Hl HF']; subst. destruct (step l s) as [s1|] eqn:E1; [|discriminate].
    assert (HR1 : reached P s1) by (eapply reached_step; eauto).
    destruct (later_run P [l] s s1 c r q HR) as (q1 & Hq1 & L1); auto; [cbn; now rewrite E1|].
    destruct (later_run P ls s1 s' c r q1 HR1 HF' E Hq1) as (q2 & Hq2 & L2).
    assert (q2 = q') by (unfold request_of in *; congruence). subst q2.
    destruct L1 as (A1 & A2 & A3 & A4). destruct L2 as (B1 & B2 & B3 & B4).
    assert (V1 : r_val q1 = Unready). { destruct (r_val q1) eqn:V; auto; exfalso; rewrite B3 in Hv; congruence. }
    assert (V0 : r_val q = Unready). { destruct (r_val q) eqn:V; auto; exfalso; rewrite A3 in V1; congruence. }
    assert (H1 : r_held q1 = true) by (destruct (r_held q1) eqn:X; auto; rewrite B4 in Hh; auto).
    assert (H0 : r_held q = true) by (destruct (r_held q) eqn:X; auto; rewrite A4 in H1; auto).
    apply (IH s1 s' c r q1 q'); auto.
    intros M. apply Hm. destruct (step_local c l s s1 E1) as [[Ec _]|L].
    { rewrite Ec in M. now apply (missed_msg _ q q1). }
    destruct (log_local c l _ _ _ _ L (Inv1_reached P s c HR)) as [El|(m & g & o & El & Hp)].
    + apply (missed_msg _ q q1); auto. unfold missed in *. now rewrite El in M.
    + destruct M as (m1 & g1 & o1 & Hin & Hi & Hn & Ho). rewrite El in Hin. apply in_app_or in Hin. destruct Hin as [Hin|[Hin|[]]].
      * apply (missed_msg _ q q1); auto. exists m1, g1, o1. auto.
      * exfalso. injection Hin as -> -> ->. apply (Hp Ho r). rewrite Hi, Hn.
        pose proof (f_equal ep_name A1) as E2. pose proof (f_equal req_id A1) as E3. cbn in E2, E3. rewrite E2, E3.
        apply (p_complete _ (Inv3_reached P s c HR)); auto. unfold waiting. now rewrite Hs, V0.
Qed.

Lemma no_bad P s c : reached P s -> ~ In Bad (c_in (s_cl s c)).
Proof.
  intros HR. refine (reached_ind P (fun s => ~ In Bad (c_in (s_cl s c))) _ _ s HR); [intros []|].
  intros s1 l s2 HR1 I Hl E. destruct (step_local c l s1 s2 E) as [[-> _]|L]; [exact I|]. pose proof (Inv1_reached P s1 c HR1) as I1.
  clear HR1 Hl E. revert L I I1. generalize (s_cl s1 c), (ccalls c s1), (s_cl s2 c), (ccalls c s2). intros x k x' k' L I I1.
  destruct L; try match goal with |- context [push_in] => unfold push_in; cbn [c_open set_out]; destruct (c_open x) end; try exact I;
    try (cbn; intros B; apply in_app_or in B; destruct B as [B|[B|[]]]; [exact (I B)|]; try destruct (_ =? 0); discriminate).
  - unfold client_recv in H. destruct (negb (c_run x)); [discriminate|].
    assert (gen : forall m g x0, Inv1 x0 -> ~ In Bad (c_in x0) -> ~ In Bad (c_in (process m g ua x0))).
    { intros m g x0 J1 J2. destruct (process_fields m g ua x0 J1) as (-> & _). exact J2. }
    destruct (c_in x) as [|[m g|m|] r] eqn:Ei; [destruct eof; [|discriminate]| | |]; injection H as <-; apply gen;
      try (eapply Inv1_ext; [..|exact I1]; reflexivity); cbn; rewrite ?Ei; intros B; apply I; try rewrite Ei in *; first [exact B|now right].
  - intros [].
Qed.

Lemma process_shape m g ua x : Inv1 x -> forall r q q', nth_error (c_reqs x) r = Some q -> nth_error (c_reqs (process m g ua x)) r = Some q' ->
  r_held q' = r_held q /\ r_stage q' = r_stage q.
Proof.
  intros I1 r q q' Hq. destruct (process_processed m g ua x I1); cbn; try (intros Hq'; rewrite Hq in Hq'; injection Hq' as <-; auto).
  intros Hq'. apply set_nth_case in Hq'; [|eapply nth_error_lt; eauto]. destruct Hq' as [[-> ->]|[_ Hq']]; [|rewrite Hq in Hq'; injection Hq' as <-; auto].
  cbn. rewrite Hq in H0. injection H0 as <-. auto.
Qed.

(** The client worker can always take the next message. *)
Lemma drain c : forall n s, reached (fair_to c) s -> c_run (s_cl s c) = true -> length (c_in (s_cl s c)) = n ->
  exists s', run (repeat (CliRecv c None) n) s = Some s' /\ c_in (s_cl s' c) = [] /\ c_run (s_cl s' c) = true /\ s_calls s' = s_calls s /\
    forall r q, request_of s c r q -> forall q', request_of s' c r q' -> r_held q' = r_held q /\ r_stage q' = r_stage q.
Proof.
  induction n as [|n IH]; intros s HR Hrun Hlen.
  - exists s. cbn. destruct (c_in (s_cl s c)); [|discriminate]. repeat split; auto; unfold request_of in *; congruence.
  - destruct (c_in (s_cl s c)) as [|i r] eqn:Ei; [discriminate|].
    assert (Hi : exists m g, i = Full m g).
    { destruct i as [m g|m|]; [eauto|exfalso|exfalso].
      - apply (o_cut _ _ (Inv2_reached c s HR) m). rewrite Ei. now left.
      - apply (no_bad (fair_to c) s c HR). rewrite Ei. now left. }
    destruct Hi as (m & g & ->).
    assert (E1 : step (CliRecv c None) s = Some (with_cl c (process m g None (set_in r (s_cl s c))) s)).
    { cbn [step]. unfold client_recv. rewrite Hrun, Ei. reflexivity. }
    set (s1 := with_cl c (process m g None (set_in r (s_cl s c))) s) in *.
    assert (I1 : Inv1 (set_in r (s_cl s c))) by (eapply Inv1_ext; [..|exact (Inv1_reached _ s c HR)]; reflexivity).
    assert (Ec : s_cl s1 c = process m g None (set_in r (s_cl s c))) by (unfold s1; cbn; now rewrite upd_same).
    destruct (process_fields m g None _ I1) as (F1 & F2 & F3 & F4 & _).
    destruct (IH s1) as (s' & R1 & R2 & R3 & R4 & R5).
    + eapply reached_step; [exact HR| |exact E1]. cbn. exact I.
    + rewrite Ec, F4. exact Hrun.
    + rewrite Ec, F1. cbn in *. lia.
    + exists s'. split; [cbn [repeat run]; rewrite E1; exact R1|]. split; [exact R2|]. split; [exact R3|]. split; [exact R4|].
      intros r0 q Hq q' Hq'. assert (Hq1 : exists q1, request_of s1 c r0 q1).
      { unfold request_of in *. destruct (nth_error (c_reqs (s_cl s1 c)) r0) eqn:X; [eauto|].
        destruct (later_run (fair_to c) [CliRecv c None] s s1 c r0 q HR) as (q1 & Hq1 & _); auto.
        - constructor; [exact I|constructor].
        - cbn [run]. now rewrite E1.
        - unfold request_of in Hq1. congruence. }
      destruct Hq1 as (q1 & Hq1). destruct (R5 r0 q1 Hq1 q' Hq') as [-> ->].
      unfold request_of in Hq1. rewrite Ec in Hq1. exact (process_shape m g None _ I1 r0 q q1 Hq Hq1).
Qed.

(** Progress: when the answer was given and not missed, it is in the future as soon as the worker has taken what is on the wire. *)
Theorem answered_resolves c s r q d : reached (fair_to c) s -> request_of s c r q -> r_stage q = Booked -> r_held q = true ->
  c_open (s_cl s c) = true -> In (msg_of q, Some d) (calls_for c (r_id q) s) -> ~ missed (s_cl s c) q ->
  exists s' q', run (repeat (CliRecv c None) (length (c_in (s_cl s c)))) s = Some s' /\ request_of s' c r q' /\ r_val q' = Value d.
Proof.
  intros HR Hq Hs Hh Ho Hc Hm. pose proof (f_open _ (Inv4_reached _ s c HR)) as Hor.
  destruct (drain c _ s HR ltac:(congruence) eq_refl) as (s' & R1 & R2 & R3 & R4 & R5).
  assert (HF : Forall (fair_to c) (repeat (CliRecv c None) (length (c_in (s_cl s c))))).
  { apply Forall_forall. intros l Hl. apply repeat_spec in Hl. subst l. exact I. }
  destruct (later_run _ _ s s' c r q HR HF R1 Hq) as (q' & Hq' & L). exists s', q'. split; [exact R1|]. split; [exact Hq'|].
  assert (HR' : reached (fair_to c) s').
  { destruct HR as (l0 & HF0 & E0). eexists. split; [apply Forall_app; split; [exact HF0|exact HF]|]. now rewrite run_app, E0. }
  destruct (R5 r q Hq q' Hq') as [Hh' Hs']. pose proof (f_open _ (Inv4_reached _ s' c HR')) as Hor'.
  destruct L as (L1 & _). pose proof (f_equal req_id L1) as Hid. cbn in Hid.
  destruct (answered_request c s' r q' d HR' Hq') as [V|[V [A|M]]]; auto; try congruence.
  - rewrite L1, Hid. unfold calls_for in *. now rewrite R4.
  - exfalso. destruct A as (g & A). rewrite R2 in A. contradiction.
  - exfalso. refine (not_missed (fair_to c) _ s s' c r q q' HR HF R1 Hq Hs Hm Hq' V _ M). congruence.
Qed.

(** ** Requests that are never resolved (C05) *)

Record Stuck (r : nat) (i : N) (x : client) : Prop := {
  k_req : exists q, nth_error (c_reqs x) r = Some q /\ r_id q = i /\ r_stage q = Booked /\ r_val q = Unready;
  k_wire : c_run x = false \/ ~ on_the_wire x i;
  k_born : c_born x = true;
}.

Lemma Stuck_ext r i x x' : Stuck r i x -> c_reqs x' = c_reqs x -> c_born x' = c_born x -> c_run x' = c_run x ->
  (forall it, In it (c_in x' ++ c_out x') -> In it (c_in x ++ c_out x)) -> Stuck r i x'.
Proof.
  intros [H1 H2 H3] E1 E2 E3 HI. constructor; rewrite ?E1, ?E2, ?E3; auto. destruct H2 as [H2|H2]; [now left|right].
  intros (m & g & Hin & Hm). apply H2. exists m, g. auto.
Qed.
Lemma Stuck_set r i x r2 q q' : Inv1 x -> Stuck r i x -> nth_error (c_reqs x) r2 = Some q -> r_id q' = r_id q ->
  (r_stage q = Booked -> r_val q = Unready -> r_stage q' = Booked /\ r_val q' = Unready) ->
  Stuck r i (set_reqs (set_nth r2 q' (c_reqs x)) x).
Proof.
  intros I1 [(q0 & A1 & A2 & A3 & A4) H2 H3] Hq Hid Hs. constructor; auto. cbn. destruct (Nat.eq_dec r r2) as [->|Hn].
  - rewrite Hq in A1. injection A1 as <-. exists q'. rewrite set_nth_same by (eapply nth_error_lt; eauto). destruct (Hs A3 A4).
    split; [reflexivity|]. split; [congruence|auto].
  - exists q0. rewrite set_nth_other by auto. auto.
Qed.

Lemma Stuck_local c l r i x k x' k' : local c l x k x' k' -> fair_to c l -> l <> CliClose c -> i <> 0%N -> Inv1 x -> Inv2 x k -> Inv4 x ->
  Stuck r i x -> Stuck r i x'.
Proof.
  intros L HF HC Hi I1 I2 I4 SK; destruct L; cbn in HF; try contradiction; try (now apply (Stuck_ext r i x)).
  - (* connect *) exfalso. pose proof (k_born _ _ _ SK). congruence.
  - (* take *) apply (Stuck_ext r i (set_reqs (c_reqs x ++ [{| r_id := c_next x; r_name := n; r_data := d; r_stage := Taken; r_held := true;
                                        r_val := Unready |}]) x)); auto.
    destruct SK as [(q0 & A1 & A2) H2 H3]. constructor; auto. exists q0. cbn. rewrite nth_error_app1 by (eapply nth_error_lt; eauto). auto.
  - (* send *) destruct (Stuck_set r i x r0 q (with_stage Sent q) I1 SK H) as [A1 A2 A3]; [reflexivity|congruence|].
    constructor; auto. destruct A2 as [A2|A2]; [now left|right]. intros (m & g & Hin & Hm). apply A2.
    apply in_app_or in Hin. cbn in Hin. destruct Hin as [Hin|Hin]; [exists m, g; split; [apply in_or_app; now left|exact Hm]|].
    apply in_app_or in Hin. destruct Hin as [Hin|[Hin|[]]]; [exists m, g; split; [apply in_or_app; now right|exact Hm]|].
    exfalso. injection Hin as <- <-. cbn in Hm. destruct (k_req _ _ _ SK) as (q0 & B1 & B2 & B3 & _).
    pose proof (i_id x I1 _ _ H). pose proof (i_id x I1 _ _ B1). assert (r0 = r) by lia. subst r0. congruence.
  - apply (Stuck_set r i x r0 q); auto; congruence.
  - (* book *) destruct (Stuck_set r i x r0 q (with_stage Booked q) I1 SK H) as [A1 A2 A3]; [reflexivity|auto|constructor; auto].
  - apply (Stuck_set r i x r0 q); auto.
  - (* recv *) destruct ua; [contradiction|]. unfold client_recv in H. destruct (c_run x) eqn:Er; [|discriminate]. cbn [negb] in H.
    assert (Hw : ~ on_the_wire x i) by (destruct (k_wire _ _ _ SK); [congruence|assumption]).
    assert (gen : forall m g x0, Inv1 x0 -> Stuck r i x0 -> req_id m <> i -> Stuck r i (process m g None x0)).
    { intros m g x0 J1 J2 J3. generalize (process_processed m g None x0 J1). generalize (process m g None x0). intros y HP.
      inversion HP as [r1 q1 ua' P1 P2 P3 P4 P5 P6 P7|r1 q1 ua' P1 P2 P3 P4 P5 P6 P7|ua' P1 P2|ua' P1 P2 P3|]; subst; try (now apply (Stuck_ext r i x0)).
      apply (Stuck_ext r i (set_reqs (set_nth r1 (with_val (Value (payload m)) q1) (c_reqs x0)) x0)); auto.
      destruct J2 as [(q0 & A1 & A2 & A3) H2 H3]. constructor; auto. cbn. exists q0. rewrite set_nth_other; auto. intros ->.
      rewrite P2 in A1. injection A1 as <-. congruence. }
    assert (lost : forall rr, Stuck r i (set_flags (c_born x) false false (c_term x) (set_in rr x))).
    { intros rr. destruct SK as [H1 H2 H3]. constructor; auto. }
    destruct (c_in x) as [|[m g|m|] rr] eqn:Ei.
    + destruct eof; [|discriminate]. injection H as <-. apply gen.
      * eapply Inv1_ext; [..|exact I1]; reflexivity.
      * specialize (lost []). destruct SK as [H1 H2 H3]. constructor; auto.
      * cbn. auto.
    + injection H as <-. apply gen.
      * eapply Inv1_ext; [..|exact I1]; reflexivity.
      * apply (Stuck_ext r i x); auto. cbn. rewrite Ei. intros it Hin. now right.
      * intros <-. apply Hw. exists m, g. rewrite Ei. split; [now left|reflexivity].
    + exfalso. apply (o_cut x k I2 m). rewrite Ei. now left.
    + injection H as <-. apply gen.
      * eapply Inv1_ext; [..|exact I1]; reflexivity.
      * apply lost.
      * cbn. auto.
  - (* cast *) destruct SK as [A1 A2 A3]. constructor; auto. destruct A2 as [A2|A2]; [now left|right]. intros (m & g & Hin & Hm). apply A2.
    exists m, g. split; [|exact Hm]. apply in_app_or in Hin. apply in_or_app. destruct Hin as [Hin|Hin]; [now left|]. cbn in Hin.
    apply in_app_or in Hin. destruct Hin as [Hin|[Hin|[]]]; [now right|]. injection Hin as <- <-. cbn in Hm. congruence.
  - (* answer *) destruct SK as [A1 A2 A3]. unfold push_in. cbn [c_open set_out]. destruct (c_open x) eqn:Eo; constructor; auto.
    + destruct A2 as [A2|A2]; [now left|right]. intros (m' & g' & Hin & Hm). apply A2. cbn in Hin. rewrite <- app_assoc in Hin.
      apply in_app_or in Hin. destruct Hin as [Hin|[Hin|Hin]].
      * exists m', g'. split; [apply in_or_app; now left|exact Hm].
      * exists m, g. injection Hin as <- <-. cbn in Hm. split; [|exact Hm]. apply in_or_app. right. rewrite H. now left.
      * exists m', g'. split; [|exact Hm]. apply in_or_app. right. rewrite H. now right.
    + destruct A2 as [A2|A2]; [now left|right]. intros (m' & g' & Hin & Hm). apply A2. exists m', g'. split; [|exact Hm].
      apply in_app_or in Hin. apply in_or_app. destruct Hin as [Hin|Hin]; [now left|right]. rewrite H. now right.
  - apply (Stuck_ext r i x); auto. cbn. rewrite H. intros it Hin. apply in_app_or in Hin. apply in_or_app. cbn. tauto.
  - apply (Stuck_ext r i x); auto. cbn. rewrite H. intros it Hin. apply in_app_or in Hin. apply in_or_app. cbn. tauto.
  - unfold push_in. destruct (c_open x); [|exact SK]. destruct SK as [A1 A2 A3]. constructor; auto.
    destruct A2 as [A2|A2]; [now left|right]. intros (m' & g' & Hin & Hm). apply A2. cbn in Hin. rewrite <- app_assoc in Hin.
    exists m', g'. split; [|exact Hm]. apply in_app_or in Hin. apply in_or_app. destruct Hin as [Hin|[Hin|Hin]]; auto.
    injection Hin as <- <-. cbn in Hm. congruence.
Qed.

(** A request whose answer is not on the wire any more, or whose connection is lost, never gets an answer. *)
Theorem stuck_forever c ls : forall s s' r q, reached (fair_to c) s -> request_of s c r q -> r_stage q = Booked -> r_val q = Unready ->
  c_run (s_cl s c) = false \/ ~ on_the_wire (s_cl s c) (r_id q) ->
  Forall (fair_to c) ls -> ~ In (CliClose c) ls -> run ls s = Some s' ->
  exists q', request_of s' c r q' /\ r_val q' = Unready.
Proof.
  intros s s' r q HR Hq Hs Hv Hw HF HC E.
  assert (SK : Stuck r (r_id q) (s_cl s c)).
  { constructor; [exists q; auto|exact Hw|]. destruct (c_born (s_cl s c)) eqn:B; [reflexivity|].
    unfold request_of in Hq. rewrite (unborn_reqs _ s c HR B) in Hq. destruct r; discriminate. }
  assert (Hi : r_id q <> 0%N) by (pose proof (i_id _ (Inv1_reached _ s c HR) _ _ Hq); lia).
  generalize dependent (r_id q). clear q Hq Hs Hv. intros i _ SK Hi. revert s HR SK E.
  induction ls as [|l ls IH]; intros s HR SK E; cbn [run] in E.
  - injection E as <-. destruct (k_req _ _ _ SK) as (q0 & A1 & A2 & A3 & A4). exists q0. auto.
  - inversion HF as [|? ? Hl HF']; subst. destruct (step l s) as [s1|] eqn:E1; [|discriminate].
    apply (IH HF') with (s := s1); auto.
    + intros Hin. apply HC. now right.
    + eapply reached_step; eauto.
    + destruct (step_local c l s s1 E1) as [[-> _]|L]; [exact SK|].
      refine (Stuck_local c l r i _ _ _ _ L Hl _ Hi (Inv1_reached _ s c HR) (Inv2_reached c s HR) (Inv4_reached _ s c HR) SK).
      intros ->. apply HC. now left.
Qed.

(** ** Clients do not disturb each other (C09) *)


Lemma upd_cong {A} (D : nat -> bool) (f g : nat -> A) k v : (forall c, D c = false -> f c = g c) ->
  forall c, D c = false -> upd f k v c = upd g k v c.
Proof. intros H c Hc. unfold upd. destruct (c =? k); auto. Qed.
Lemma upd_out {A} (D : nat -> bool) (f : nat -> A) k v : D k = true -> forall c, D c = false -> upd f k v c = f c.
Proof. intros H c Hc. unfold upd. destruct (Nat.eqb_spec c k); congruence. Qed.

(** A step about the others is not noticed. *)
Lemma erased_step D l s s' t : about D l = true -> (forall c d j, D c = true -> l <> SrvCrashSending c d j) ->
  step l s = Some s' -> alike D s t -> alike D s' t.
Proof.
  intros HA HC E [A1 A2 A3 A4 A5 A6 A7 A8].
  destruct l as [c'|c'|c' n|n|c' n d|c' r ok|c' r|c' r|c' ua|c'|c' n d|c' i|c'|c' ans|c'|n d| | |c' d j]; cbn [step about] in E, HA; try discriminate;
    try (exfalso; eapply HC; eauto; fail);
    repeat match type of E with
    | (if ?b then _ else _) = _ => destruct b eqn:?; try discriminate
    | match ?b with _ => _ end = _ => destruct b eqn:?; try discriminate
    end; injection E as <-; constructor; cbn; try congruence; try (intros c0 H0; rewrite ?(upd_out D) by assumption; auto; fail);
    rewrite ?filter_app; cbn; rewrite ?HA; cbn; rewrite ?app_nil_r; auto.
Qed.

(** A step not about the others does the same when their steps are left out. *)
Lemma kept_step D l s s' t : about D l = false -> step l s = Some s' -> alike D s t ->
  exists t', step l t = Some t' /\ alike D s' t'.
Proof.
  intros HA E [A1 A2 A3 A4 A5 A6 A7 A8].
  destruct l as [c'|c'|c' n|n|c' n d|c' r ok|c' r|c' r|c' ua|c'|c' n d|c' i|c'|c' ans|c'|n d| | |c' d j]; cbn [step about] in E, HA |- *;
    try (rewrite ?(A7 _ HA), ?(A6 _ HA)); rewrite ?A1, ?A2, ?A3; unfold eof_for in *; rewrite ?A1, ?(A6 _ HA);
    repeat match type of E with
    | (if ?b then _ else _) = _ => destruct b eqn:?; try discriminate
    | match ?b with _ => _ end = _ => destruct b eqn:?; try discriminate
    end; injection E as <-; (eexists; split; [reflexivity|]); constructor; cbn;
    try congruence; try (intros c0 H0; repeat apply upd_cong with (D := D); auto; fail); auto;
    try (rewrite ?filter_app, A8; reflexivity).
  - intros c0 H0. rewrite A6, A7 by exact H0. rewrite A5. reflexivity.
Qed.

Theorem non_interference D ls : (forall c d j, D c = true -> ~ In (SrvCrashSending c d j) ls) ->
  forall s, run ls sys0 = Some s ->
  exists t, run (filter (fun l => negb (about D l)) ls) sys0 = Some t /\ alike D s t.
Proof.
  intros HC s E. assert (gen : forall s0 t0, alike D s0 t0 -> run ls s0 = Some s ->
    exists t, run (filter (fun l => negb (about D l)) ls) t0 = Some t /\ alike D s t).
  { clear E. induction ls as [|l ls IH]; intros s0 t0 A E; cbn [run] in E.
    - injection E as <-. exists t0. auto.
    - destruct (step l s0) as [s1|] eqn:E1; [|discriminate]. cbn [filter].
      assert (HC' : forall c d j, D c = true -> ~ In (SrvCrashSending c d j) ls) by (intros c d j Hc Hin; apply (HC c d j Hc); now right).
      destruct (about D l) eqn:HA; cbn [negb].
      + apply (IH HC' s1); auto. apply (erased_step D l s0 s1 t0); auto. intros c d j Hc ->. apply (HC c d j Hc). now left.
      + destruct (kept_step D l s0 s1 t0 HA E1 A) as (t1 & T1 & A1). cbn [run]. rewrite T1. apply (IH HC' s1); auto. }
  apply (gen sys0 sys0); auto. constructor; auto.
Qed.
