From Coq Require Import String List Arith NArith ZArith Ascii Bool Lia Permutation Sorting.Sorted.
Import ListNotations.
From Verif Require Import OMap_model OMap_proofs UnixSystem_model Json_model Json_spec Json_proofs Names_model Names_proofs Config_model Config_spec Config_proofs Bson_model Bson_spec Bson_proofs Wire_model Wire_spec.
Local Open Scope nat_scope.
Local Notation length := List.length.

(** ** Maps of the same pairs *)
Lemma ordered_N {V} (m : list (N * V)) : ordered N.ltb m -> StronglySorted (fun a b => (fst a < fst b)%N) m.
Proof.
  induction 1 as [|a m H IH HF]; constructor; auto. eapply Forall_impl; [|exact HF]. intros b Hb. now apply N.ltb_lt.
Qed.

Lemma sorted_unique {V} : forall (a b : list (N * V)), Permutation a b -> StronglySorted (fun a b => (fst a < fst b)%N) a -> StronglySorted (fun a b => (fst a < fst b)%N) b -> a = b.
Proof.
  induction a as [|x a IH]; intros b P Sa Sb.
  - apply Permutation_nil in P. congruence.
  - destruct b as [|y b]; [apply Permutation_sym, Permutation_nil in P; discriminate|].
    inversion Sa as [|? ? Sa' Fa]; subst. inversion Sb as [|? ? Sb' Fb]; subst. rewrite Forall_forall in Fa, Fb.
    assert (x = y).
    { assert (Hx : In x (y :: b)) by (eapply Permutation_in; [exact P|now left]). assert (Hy : In y (x :: a)) by (eapply Permutation_in; [apply Permutation_sym, P|now left]).
      destruct Hx as [->|Hx]; auto. destruct Hy as [->|Hy]; auto. apply Fb in Hx. apply Fa in Hy. lia. }
    subst y. f_equal. apply IH; auto. eapply Permutation_cons_inv; eauto.
Qed.
Lemma increasing_N {V} (l : list (nat * V)) : increasing l -> StronglySorted (fun a b => (fst a < fst b)%N) (map (fun e => (N.of_nat (fst e), snd e)) l).
Proof.
  induction 1 as [|x l HS IH HF]; cbn; constructor; auto. apply Forall_map. eapply Forall_impl; [|exact HF]. cbn. intros a Ha. lia.
Qed.
Lemma sorted_NoDup {V} (l : list (N * V)) : StronglySorted (fun a b => (fst a < fst b)%N) l -> NoDup (map fst l).
Proof.
  induction 1 as [|x l HS IH HF]; cbn; constructor; auto. intros Hi. apply in_map_iff in Hi as (y & E & Hy). rewrite Forall_forall in HF. apply HF in Hy. lia.
Qed.
Lemma table_nat {V} (l : list (nat * V)) : increasing l -> small_ids l -> a_thread_table (fun _ => True) (map (fun e => (N.of_nat (fst e), snd e)) l).
Proof.
  intros HI HS. split; [now apply sorted_NoDup, increasing_N|]. apply Forall_map. eapply Forall_impl; [|exact HS]. cbn. auto.
Qed.

Section Wire.
Context {F : Type} (f64 : F -> bytes) (unf64 : bytes -> F) (trunc : F -> Z).
Notation json := (json F).
Hypothesis E8 : eight f64 unf64.

Lemma pairs_back {K V} (ltb : K -> K -> bool) (SO : strict_order ltb) (jk : K -> json) (jv : V -> json) gk gv (l : list (K * V)) :
  NoDup (map fst l) -> Forall (fun e => gk (jk (fst e)) = Some (fst e) /\ gv (jv (snd e)) = Some (snd e)) l ->
  exists m, get_pairs ltb gk gv (pairs jk jv l) = Some m /\ Permutation l m /\ ordered ltb m.
Proof.
  intros ND HF. cbn [get_pairs pairs].
  assert (G : forall acc, ordered ltb acc -> NoDup (map fst (l ++ acc)) ->
    exists m, get_pairs_go ltb gk gv (map (fun e => JArr [jk (fst e); jv (snd e)]) l) acc = Some m /\ Permutation (l ++ acc) m /\ ordered ltb m).
  { clear ND. induction HF as [|[k v] l [Hk Hv] HF IH]; intros acc OA ND; [exists acc; repeat split; auto|]. cbn [map get_pairs_go fst snd] in *. rewrite Hk, Hv.
    cbn [app map fst] in ND. inversion ND as [|? ? Hn ND']; subst.
    assert (Ea : mfind ltb k acc = None).
    { destruct (mfind ltb k acc) eqn:E; auto. exfalso. apply Hn. rewrite map_app. apply in_or_app. right. apply (find_keys ltb SO); auto. congruence. }
    rewrite Ea. pose proof (insert_absent ltb k v acc Ea) as P. destruct (IH (minsert ltb k v acc)) as (m & E & Pm & Om).
    - apply (ordered_insert ltb SO); auto.
    - eapply Permutation_NoDup; [|exact ND]. change (k :: map fst (l ++ acc)) with (map fst ((k, v) :: l ++ acc)). apply Permutation_map.
      rewrite Permutation_middle. now apply Permutation_app_head.
    - exists m. split; auto. split; auto. rewrite <- Pm. cbn [app]. rewrite Permutation_middle. now apply Permutation_app_head. }
  destruct (G [] (ordered_nil ltb) ltac:(now rewrite app_nil_r)) as (m & E & P & O). rewrite app_nil_r in P. eauto.
Qed.

Lemma uint_back n : (n < 4294967296)%N -> get_uint trunc (uint n) = Some n.
Proof. intros H. cbn. rewrite Z.mod_small by lia. now rewrite N2Z.id. Qed.
Lemma ulong_back n : (n < 9223372036854775808)%N -> get_ulong trunc (uint n) = Some n.
Proof. intros H. cbn. rewrite Z.mod_small by lia. now rewrite N2Z.id. Qed.
Lemma int_back z : is_int z -> get_int trunc (JInt z) = Some z.
Proof.
  unfold is_int. intros H. unfold get_int. cbn [get_num option_map]. rewrite signed_le; [reflexivity|lia|]. change (2 ^ (8 * Z.of_nat 4 - 1))%Z with 2147483648%Z. lia.
Qed.

Lemma pairs_sendable {K V} (jk : K -> json) (jv : V -> json) l : Forall (fun e => sendable (jk (fst e)) /\ sendable (jv (snd e))) l -> sendable (pairs jk jv l).
Proof. intros H. constructor. apply Forall_map. eapply Forall_impl; [|exact H]. intros [k v] [H1 H2]. constructor. auto. Qed.
Lemma uint_sendable n : (n < 9223372036854775808)%N -> sendable (F := F) (uint n).
Proof. intros H. constructor. lia. Qed.
Lemma int_sendable z : is_int z -> sendable (F := F) (JInt z).
Proof. unfold is_int. intros H. constructor. lia. Qed.

Lemma one_member k (v : json) : ~ In nul k -> sendable v -> sendable (JObj [(k, v)]).
Proof. intros Hk Hv. constructor; [constructor; constructor|]. constructor; auto. Qed.
Ltac no_nul := let H := fresh in intros H; cbn in H; repeat (destruct H as [H|H]; [discriminate|]); destruct H.

Lemma reply_read j : sendable j -> is_object j -> exists b, reply f64 j = WReply b /\ from_bson unf64 b = Some j.
Proof. intros H1 H2. destruct (sent_received f64 unf64 E8 j H1 H2) as (b & E & R). exists b. unfold reply. rewrite E. auto. Qed.

(** ** Names *)
Theorem mapping_answered pid t c rest : is_int pid -> a_table t ->
  (c = "m"%char -> exists b m, mapping_handle f64 pid t (c :: rest) = WReply b /\ mapping_client unf64 trunc b = Some [(pid, m)] /\ map_of t m) /\
  (c <> "m"%char -> mapping_handle f64 pid t (c :: rest) = WFalse).
Proof.
  intros Hp [ND HT]. split.
  - intros ->.
    assert (HS : sendable (F := F) (mapping_msg [(pid, t)])).
    { apply one_member; [no_nul|]. apply pairs_sendable. constructor; [|constructor]. split; [now apply int_sendable|]. apply pairs_sendable.
      eapply Forall_impl; [|exact HT]. intros [k v] [H1 H2]. cbn in *. split; [apply uint_sendable; lia|now constructor]. }
    destruct (reply_read _ HS (ex_intro _ _ eq_refl)) as (b & E & R).
    destruct (pairs_back N.ltb N_order uint JStr (get_uint trunc) get_str t ND) as (m & Em & Pm & Om).
    { eapply Forall_impl; [|exact HT]. intros [k v] [H1 H2]. cbn [fst snd] in *. split; [now apply uint_back|reflexivity]. }
    exists b, m. split; [exact E|]. split; [|split; [exact Pm|now apply ordered_N]].
    unfold mapping_client. rewrite R. cbn [bind mapping_msg]. change (member "mapping" _) with (pairs JInt (fun t => pairs (F := F) uint JStr t) [(pid, t)]).
    cbn [pairs map get_pairs get_pairs_go fst snd]. rewrite int_back by auto. cbn [pairs get_pairs] in Em. rewrite Em. reflexivity.
  - intros Hc. cbn. destruct (Ascii.eqb_spec c "m"%char); [contradiction|reflexivity].
Qed.

(** ** Process information *)
Theorem info_answered pid nm t : is_int pid -> short nm -> a_thread_table short t -> exists q b m,
  to_bson f64 info_request = Some q /\ info_handle f64 unf64 pid nm t q = WReply b /\ info_client unf64 trunc b = Some (pid, nm, m) /\ map_of t m.
Proof.
  intros Hp Hn [ND HT].
  assert (HQ : sendable (F := F) info_request) by (apply one_member; [no_nul|constructor; reflexivity]).
  destruct (sent_received f64 unf64 E8 _ HQ (ex_intro _ _ eq_refl)) as (q & Eq & Rq).
  assert (HS : sendable (F := F) (info_msg pid nm t)).
  { constructor.
    - repeat constructor.
    - repeat (constructor; [split; [cbn [fst]; no_nul|cbn [snd]]|]); [now constructor|now apply int_sendable| |constructor].
      apply pairs_sendable. eapply Forall_impl; [|exact HT]. intros [k v] [H1 H2]. cbn in *. split; [now apply uint_sendable|now constructor]. }
  destruct (reply_read _ HS (ex_intro _ _ eq_refl)) as (b & E & R).
  destruct (pairs_back N.ltb N_order uint JStr (get_ulong trunc) get_str t ND) as (m & Em & Pm & Om).
  { eapply Forall_impl; [|exact HT]. intros [k v] [H1 H2]. cbn [fst snd] in *. split; [now apply ulong_back|reflexivity]. }
  exists q, b, m. split; [exact Eq|]. split.
  - unfold info_handle. rewrite Rq. cbn [info_request]. change (get_str (member "cmd" _)) with (Some (text "info")). cbn match. exact E.
  - split; [|split; [exact Pm|now apply ordered_N]]. unfold info_client. rewrite R. cbn [bind info_msg].
    change (get_str (member "name" _)) with (Some nm). cbn [bind]. change (member "threads" _) with (pairs (F := F) uint JStr t). rewrite Em. cbn [bind].
    change (member "pid" _) with (JInt (F := F) pid). rewrite int_back by auto. reflexivity.
Qed.

(** Exactly the requests that are no document with a text under "cmd" make [handle] throw. *)
Theorem info_throws pid nm t q : is_int pid -> short nm -> a_thread_table short t ->
  (info_handle f64 unf64 pid nm t q = WThrows <-> ~ exists m c, from_bson unf64 q = Some (JObj m) /\ In (text "cmd", JStr c) m).
Proof.
  intros Hp Hn HT. destruct (info_answered pid nm t Hp Hn HT) as (q0 & b & m0 & Eq & Eh & _).
  assert (ER : reply f64 (info_msg pid nm t) = WReply b).
  { unfold info_handle in Eh. destruct (from_bson unf64 q0) as [[]|]; try discriminate. destruct (get_str _) as [c|]; [|discriminate]. destruct (bytes_eqb c _); [exact Eh|discriminate]. }
  unfold info_handle. destruct (from_bson unf64 q) as [j|] eqn:E.
  - destruct (received_sendable unf64 _ _ E) as [HS (m & ->)]. apply sendable_obj in HS as [HA _]. unfold member.
    destruct (mfind str_ltb (text "cmd") m) as [v|] eqn:Ef.
    + assert (Hv : forall c, In (text "cmd", JStr c) m -> v = JStr c) by (intros c Hi; apply (in_find str_ltb str_order) in Hi; [assert (X : Some v = Some (JStr c)) by (rewrite <- Ef; exact Hi); now injection X|exact HA]).
      apply (find_in str_ltb str_order) in Ef. destruct (get_str v) as [c|] eqn:Eg.
      * destruct v; try discriminate. split; [|intros H; exfalso; apply H; eauto]. destruct (bytes_eqb c _); [rewrite ER|]; discriminate.
      * split; auto. intros _ (m' & c & H1 & H2). injection H1 as <-. apply Hv in H2. subst v. discriminate.
    + cbn. split; auto. intros _ (m' & c & H1 & H2). injection H1 as <-. apply (in_find str_ltb str_order) in H2; [assert (X : None = Some (JStr c)) by (rewrite <- Ef; exact H2); discriminate|exact HA].
  - split; auto. intros _ (m' & c & H1 & H2). discriminate.
Qed.

(** ** Trace state *)
Lemma conf_sendable c : a_thread_table (fun _ => True) (cf_threads c) -> sendable (F := F) (conf_json c).
Proof.
  intros [ND HT]. constructor.
  - repeat constructor.
  - repeat (constructor; [split; [cbn [fst]; no_nul|cbn [snd]]|]); [constructor|constructor| |constructor].
    apply pairs_sendable. eapply Forall_impl; [|exact HT]. intros [k v] [H1 H2]. cbn in *. split; [now apply uint_sendable|constructor].
Qed.
Lemma conf_back c : a_thread_table (fun _ => True) (cf_threads c) -> exists m, map_of (cf_threads c) m /\
  conf_of trunc (conf_json c) = Some {| cf_process := cf_process c; cf_set := cf_set c; cf_threads := m |}.
Proof.
  intros [ND HT]. destruct (pairs_back N.ltb N_order uint JBool (get_ulong trunc) get_bool (cf_threads c) ND) as (m & Em & Pm & Om).
  { eapply Forall_impl; [|exact HT]. intros [k v] [H1 H2]. cbn [fst snd] in *. split; [now apply ulong_back|reflexivity]. }
  exists m. split; [split; [exact Pm|now apply ordered_N]|]. unfold conf_of.
  change (at_key "p" (conf_json c)) with (Some (JBool (F := F) (cf_process c))). change (at_key "sp" (conf_json c)) with (Some (JBool (F := F) (cf_set c))).
  change (at_key "t" (conf_json c)) with (Some (pairs (F := F) uint JBool (cf_threads c))). cbn [bind get_bool]. rewrite Em. reflexivity.
Qed.

Theorem conf_asked_set c : a_thread_table (fun _ => True) (cf_threads c) -> exists q m,
  to_bson f64 (conf_set_request c) = Some q /\ map_of (cf_threads c) m /\
  conf_asked unf64 trunc q = Some (Change {| cf_process := cf_process c; cf_set := cf_set c; cf_threads := m |}).
Proof.
  intros HT. destruct (conf_back c HT) as (m & Hm & Eb).
  assert (HS : sendable (F := F) (conf_set_request c)).
  { constructor; [repeat constructor|]. repeat (constructor; [split; [cbn [fst]; no_nul|cbn [snd]]|]); [constructor; reflexivity|now apply conf_sendable|constructor]. }
  destruct (sent_received f64 unf64 E8 _ HS (ex_intro _ _ eq_refl)) as (q & Eq & Rq). exists q, m. split; [exact Eq|]. split; [exact Hm|].
  unfold conf_asked. rewrite Rq. cbn [bind]. change (at_key "cmd" (conf_set_request c)) with (Some (JStr (F := F) (text "set"))). cbn [bind get_str].
  change (bytes_eqb (text "set") (text "set")) with true. cbn match. change (at_key "state" (conf_set_request c)) with (Some (conf_json (F := F) c)). cbn [bind]. rewrite Eb. reflexivity.
Qed.
Theorem conf_asked_get : exists q, to_bson f64 conf_get_request = Some q /\ conf_asked unf64 trunc q = Some Question.
Proof.
  assert (HS : sendable (F := F) conf_get_request) by (apply one_member; [no_nul|constructor; reflexivity]).
  destruct (sent_received f64 unf64 E8 _ HS (ex_intro _ _ eq_refl)) as (q & Eq & Rq). exists q. split; [exact Eq|].
  unfold conf_asked. rewrite Rq. reflexivity.
Qed.
Theorem conf_answered p t : a_thread_table (fun _ => True) t -> exists b m,
  conf_answer f64 p t = WReply b /\ conf_client unf64 trunc b = Some (p, m) /\ map_of t m.
Proof.
  intros HT. pose (c := {| cf_process := p; cf_set := false; cf_threads := t |}). destruct (conf_back c HT) as (m & Hm & Eb).
  assert (HS : sendable (F := F) (JObj [(text "state", conf_json c)])) by (apply one_member; [no_nul|now apply conf_sendable]).
  destruct (reply_read _ HS (ex_intro _ _ eq_refl)) as (b & E & R). exists b, m. split; [exact E|]. split; [|exact Hm].
  unfold conf_client. rewrite R. cbn [bind]. change (at_key "state" _) with (Some (conf_json (F := F) c)). cbn [bind]. rewrite Eb. reflexivity.
Qed.
(** ** The trace state of a process, over the wire *)
Lemma handle_increasing ls s r : Forall not_late ls -> grun ls cfg0 = Some s -> increasing (snd (snd (c_handle r s))).
Proof.
  intros HF E. destruct (reach _ _ HF E) as (a & _ & R). destruct (handle_rel r s a R) as (a' & _ & R').
  pose proof (r_ordered _ _ R') as O. pose proof (reply_keys r s) as K. unfold increasing.
  assert (G : forall (m : list (nat * nat)) (l : list (nat * bool)), ordered Nat.ltb m -> map fst l = map fst m -> StronglySorted (fun a b => fst a < fst b) l).
  { clear. intros m l O. revert l. induction O as [|x m O IH HF]; intros [|y l] E; cbn in E; try discriminate; constructor.
    - apply IH. now injection E.
    - injection E as E1 E2. apply Forall_forall. intros z Hz. assert (Hin : In (fst z) (map fst m)) by (rewrite <- E2; now apply in_map).
      apply in_map_iff in Hin as (w & Ew & Hw). rewrite Forall_forall in HF. apply HF in Hw. unfold lt_keys in Hw. apply Nat.ltb_lt in Hw. lia. }
  eapply G; [exact O|exact K].
Qed.

Theorem conf_remote ls s sp p ths : Forall not_late ls -> grun ls cfg0 = Some s -> small_ids (g_map s) -> increasing ths -> small_ids ths ->
  let '(s', reply) := c_handle (CChange sp p ths) s in
  exists q b, to_bson f64 (conf_set_request {| cf_process := p; cf_set := sp; cf_threads := nkeys ths |}) = Some q /\
    conf_handle f64 unf64 trunc s q = (s', WReply b) /\ conf_client unf64 trunc b = Some (fst reply, nkeys (snd reply)).
Proof.
  intros HF E HM HI HS. destruct (c_handle (CChange sp p ths) s) as [s' reply] eqn:EH.
  destruct (conf_asked_set {| cf_process := p; cf_set := sp; cf_threads := nkeys ths |} (table_nat ths HI HS)) as (q & m & Eq & [Pm Sm] & Ea).
  cbn [cf_threads cf_process cf_set] in *. assert (m = nkeys ths) by (symmetry; apply sorted_unique; auto; now apply increasing_N). subst m.
  assert (Er : map (fun e => (N.to_nat (fst e), snd e)) (nkeys ths) = ths).
  { unfold nkeys. rewrite map_map. rewrite <- (map_id ths) at 2. apply map_ext. intros [k v]. cbn. now rewrite Nat2N.id. }
  pose proof (handle_increasing ls s (CChange sp p ths) HF E) as HIr. pose proof (reply_keys (CChange sp p ths) s) as HK. rewrite EH in HIr, HK. cbn [fst snd] in HIr, HK.
  assert (HSr : small_ids (snd reply)).
  { assert (Hg : g_map s' = g_map s).
    { unfold c_handle in EH. fold (store_all ths (if sp then store_process p s else s)) in EH. injection EH as <- _. destruct (store_all_frame ths (if sp then store_process p s else s)) as (H1 & _ & _). rewrite H1. now destruct sp. }
    rewrite Hg in HK. unfold small_ids in *. rewrite Forall_forall in *. intros e He. assert (Hin : In (fst e) (map fst (g_map s))) by (rewrite <- HK; now apply in_map).
    apply in_map_iff in Hin as (w & Ew & Hw). rewrite <- Ew. auto. }
  destruct (conf_answered (fst reply) (nkeys (snd reply)) (table_nat _ HIr HSr)) as (b & m & Eb & Ec & [Pm' Sm']).
  assert (m = nkeys (snd reply)) by (symmetry; apply sorted_unique; auto; now apply increasing_N). subst m.
  exists q, b. split; [exact Eq|]. split; [|exact Ec]. unfold conf_handle. rewrite Ea. cbn [creq_of cf_threads cf_process cf_set]. rewrite Er, EH. destruct reply as [rp rt]. cbn [fst snd] in *. now rewrite Eb.
Qed.

Theorem conf_remote_query ls s : Forall not_late ls -> grun ls cfg0 = Some s -> small_ids (g_map s) ->
  exists q b, to_bson f64 conf_get_request = Some q /\ conf_handle f64 unf64 trunc s q = (s, WReply b) /\
    conf_client unf64 trunc b = Some (fst (snd (c_handle CQuery s)), nkeys (snd (snd (c_handle CQuery s)))).
Proof.
  intros HF E HM. destruct conf_asked_get as (q & Eq & Ea).
  pose proof (handle_increasing ls s CQuery HF E) as HIr. pose proof (reply_keys CQuery s) as HK.
  assert (HSr : small_ids (snd (snd (c_handle CQuery s)))).
  { unfold small_ids in *. rewrite Forall_forall in *. intros e He. assert (Hin : In (fst e) (map fst (g_map s))) by (cbn [c_handle fst] in HK; rewrite <- HK; now apply in_map).
    apply in_map_iff in Hin as (w & Ew & Hw). rewrite <- Ew. auto. }
  destruct (conf_answered (fst (snd (c_handle CQuery s))) (nkeys (snd (snd (c_handle CQuery s)))) (table_nat _ HIr HSr)) as (b & m & Eb & Ec & [Pm' Sm']).
  assert (m = nkeys (snd (snd (c_handle CQuery s)))) by (symmetry; apply sorted_unique; auto; now apply increasing_N). subst m.
  exists q, b. split; [exact Eq|]. split; [|exact Ec]. unfold conf_handle. rewrite Ea. cbn [creq_of]. cbn [c_handle fst snd] in *. now rewrite Eb.
Qed.
End Wire.
