(** Proofs for C106. *)
From Coq Require Import String List Arith NArith ZArith Ascii Bool Lia Permutation Sorting.Sorted.
Import ListNotations.
From Verif Require Import OMap_model OMap_proofs UnixSystem_model UnixSystem_proofs Json_model Json_spec Json_proofs Names_model Names_proofs Config_model Config_spec Config_proofs Bson_model Bson_spec Bson_proofs Wire_model Wire_spec Wire_proofs Foreign_spec.
Local Open Scope nat_scope.
Local Notation length := List.length.

Lemma first_cons {A B K} (wrap : A -> K) a (b : B) es k v : first wrap ((a, b) :: es) k v <-> (wrap a = k /\ v = b) \/ (wrap a <> k /\ first wrap es k v).
Proof.
  split.
  - intros ([|[a0 b0] x] & a' & y & E & W & F); cbn in E.
    + injection E as -> -> ->. left. auto.
    + injection E as -> -> ->. right. inversion F as [|? ? F1 F2]; subst. split; [exact F1|]. exists x, a', y. auto.
  - intros [(W & ->)|(W & x & a' & y & -> & W' & F)].
    + exists [], a, es. auto.
    + exists ((a, b) :: x), a', y. split; [reflexivity|]. split; [exact W'|]. constructor; assumption.
Qed.
Lemma first_nil {A B K} (wrap : A -> K) k (v : B) : ~ first wrap [] k v.
Proof. intros ([|e x] & a & y & E & _); discriminate E. Qed.
Lemma first_wrap {A B K L} (w1 : A -> K) (w2 : A -> L) (f : K -> L) : (forall a, w2 a = f (w1 a)) -> (forall x y, f x = f y -> x = y) -> forall (es : list (A * B)) k v, first w1 es k v <-> first w2 es (f k) v.
Proof.
  intros E I es k v. split; intros (x & a & y & -> & W & F); exists x, a, y; (split; [reflexivity|]); split.
  - rewrite E, W. reflexivity.
  - eapply Forall_impl; [|exact F]. intros e N X. rewrite E in X. exact (N (I _ _ X)).
  - rewrite E in W. exact (I _ _ W).
  - eapply Forall_impl; [|exact F]. intros e N X. apply N. rewrite E, X. reflexivity.
Qed.
Lemma first_fun {A B K} (wrap : A -> K) (es : list (A * B)) k v v' : first wrap es k v -> first wrap es k v' -> v = v'.
Proof.
  induction es as [|[a b] es IH]; intros H H'; [destruct (first_nil _ _ _ H)|]. apply first_cons in H, H'.
  destruct H as [(W & ->)|(W & H)]; destruct H' as [(W' & ->)|(W' & H')]; try congruence. exact (IH H H').
Qed.

(** ** Lists of pairs *)
Section Pairs.
Context {F A B K V : Type} (ltb : K -> K -> bool) (SO : strict_order ltb).
Variables (gk : json F -> option K) (gv : json F -> option V) (rk : json F -> A -> Prop) (rv : json F -> B -> Prop) (w : A -> K) (Rv : B -> V -> Prop).
Hypothesis K1 : forall j a, rk j a -> gk j = Some (w a).
Hypothesis K2 : forall j k, gk j = Some k -> exists a, rk j a.
Hypothesis V1 : forall j b, rv j b -> exists v, gv j = Some v /\ Rv b v.
Hypothesis V2 : forall j v, gv j = Some v -> exists b, rv j b.
Lemma pairs_go l raw : Forall2 (fun j e => exists a b rest, j = JArr (a :: b :: rest) /\ rk a (fst e) /\ rv b (snd e)) l raw -> forall m0, ordered ltb m0 ->
  exists m, get_pairs_go ltb gk gv l m0 = Some m /\ ordered ltb m /\
  (forall k v, mfind ltb k m = Some v -> mfind ltb k m0 = Some v \/ (mfind ltb k m0 = None /\ exists b, first w raw k b /\ Rv b v)) /\
  (forall k v, mfind ltb k m0 = Some v -> mfind ltb k m = Some v) /\
  (forall k b, mfind ltb k m0 = None -> first w raw k b -> exists v, mfind ltb k m = Some v /\ Rv b v).
Proof.
  induction 1 as [|j [a b] l raw (ja & jb & rest & -> & Ha & Hb) HF IH]; intros m0 O.
  - exists m0. split; [reflexivity|]. split; [exact O|]. split; [auto|]. split; [auto|]. intros k b _ N. destruct (first_nil _ _ _ N).
  - cbn [fst snd] in Ha, Hb. destruct (V1 _ _ Hb) as (v & Ev & Rbv). cbn [get_pairs_go]. rewrite (K1 _ _ Ha), Ev.
    destruct (mfind ltb (w a) m0) as [v0|] eqn:Fm.
    + destruct (IH m0 O) as (m & E & Om & C1 & C2 & C3). exists m. split; [exact E|]. split; [exact Om|]. split; [|split; [exact C2|]].
      * intros k v1 Hk. destruct (C1 k v1 Hk) as [X|(X & b1 & X1 & X2)]; [left; exact X|]. right. split; [exact X|]. exists b1. split; [|exact X2]. apply first_cons. right. split; [|exact X1]. intros <-. rewrite Fm in X. discriminate X.
      * intros k b1 Hn Hf. apply first_cons in Hf. destruct Hf as [(<- & _)|(_ & Hf)]; [rewrite Fm in Hn; discriminate Hn|]. exact (C3 k b1 Hn Hf).
    + destruct (IH (minsert ltb (w a) v m0) (ordered_insert _ SO _ _ _ O)) as (m & E & Om & C1 & C2 & C3). exists m. split; [exact E|]. split; [exact Om|].
      assert (D : forall k, k = w a \/ k <> w a) by (intros k; destruct (key_case ltb SO k (w a)) as [(_ & _ & X)|[(_ & _ & X)|(_ & _ & X)]]; auto).
      split; [|split].
      * intros k v1 Hk. destruct (C1 k v1 Hk) as [X|(X & b1 & X1 & X2)].
        -- destruct (D k) as [->|Nk]; [rewrite (find_insert_same ltb SO) in X; injection X as <-; right; split; [exact Fm|]; exists b; split; [apply first_cons; left; auto|exact Rbv]|].
           rewrite (find_insert_other ltb SO _ _ _ _ O Nk) in X. left. exact X.
        -- destruct (D k) as [->|Nk]; [rewrite (find_insert_same ltb SO) in X; discriminate X|]. rewrite (find_insert_other ltb SO _ _ _ _ O Nk) in X. right. split; [exact X|]. exists b1. split; [|exact X2].
           apply first_cons. right. split; [congruence|exact X1].
      * intros k v1 Hk. apply C2. destruct (D k) as [->|Nk]; [rewrite Fm in Hk; discriminate Hk|]. rewrite (find_insert_other ltb SO _ _ _ _ O Nk). exact Hk.
      * intros k b1 Hn Hf. apply first_cons in Hf. destruct Hf as [(<- & ->)|(Nw & Hf)].
        -- exists v. split; [|exact Rbv]. apply C2. apply (find_insert_same ltb SO).
        -- apply (C3 k b1); [|exact Hf]. rewrite (find_insert_other ltb SO _ _ _ _ O); [exact Hn|congruence].
Qed.
Lemma pairs_read j raw : listed rk rv j raw -> exists m, get_pairs ltb gk gv j = Some m /\ ordered ltb m /\
  (forall k v, mfind ltb k m = Some v -> exists b, first w raw k b /\ Rv b v) /\ (forall k b, first w raw k b -> exists v, mfind ltb k m = Some v /\ Rv b v).
Proof.
  intros [l es H]. destruct (pairs_go l es H [] (ordered_nil ltb)) as (m & E & O & C1 & _ & C3). exists m. split; [exact E|]. split; [exact O|]. split.
  - intros k v Hk. destruct (C1 k v Hk) as [X|(_ & X)]; [discriminate X|exact X].
  - intros k b Hf. exact (C3 k b eq_refl Hf).
Qed.
Lemma pairs_only j m : get_pairs ltb gk gv j = Some m -> exists raw, listed rk rv j raw.
Proof.
  unfold get_pairs. destruct j as [| | | | |l|]; try discriminate. intros H.
  assert (G : forall l m0 m, get_pairs_go ltb gk gv l m0 = Some m -> exists raw, Forall2 (fun j e => exists a b rest, j = JArr (a :: b :: rest) /\ rk a (fst e) /\ rv b (snd e)) l raw).
  { clear l m H. induction l as [|j l IH]; intros m0 m H; [exists []; constructor|]. cbn [get_pairs_go] in H. destruct j as [| | | | |[|ja [|jb rest]]|]; try discriminate H.
    destruct (gk ja) as [k|] eqn:Ek; [|discriminate H]. destruct (gv jb) as [v|] eqn:Ev; [|discriminate H]. destruct (K2 _ _ Ek) as (a & Ha). destruct (V2 _ _ Ev) as (b & Hb). destruct (IH _ _ H) as (raw & HR).
    exists ((a, b) :: raw). constructor; [|exact HR]. exists ja, jb, rest. auto. }
  destruct (G _ _ _ H) as (raw & HR). exists raw. constructor. exact HR.
Qed.
End Pairs.

Section Foreign.
Context {F : Type} (f64 : F -> bytes) (unf64 : bytes -> F) (trunc : F -> Z).
Notation json := (json F).
Hypothesis E8 : eight f64 unf64.
Notation document := (document unf64).
Notation number := (number trunc).
Notation count := (count trunc).

Lemma number_get j z : get_num trunc j = Some z <-> number j z.
Proof.
  split.
  - destruct j as [|[]|z0|f|s|l|m]; cbn; intros E; try discriminate E; injection E as <-; constructor.
  - intros H. destruct H; reflexivity.
Qed.
Definition w64 (z : Z) : N := Z.to_N (u64 z).
Definition w32 (z : Z) : N := Z.to_N (u32 z).
Lemma ulong_1 j z : count j z -> get_ulong trunc j = Some (w64 z).
Proof. intros []; reflexivity. Qed.
Lemma ulong_2 j k : get_ulong trunc j = Some k -> exists z, count j z.
Proof. destruct j as [| |z|f| | |]; try discriminate; intros _; eexists; constructor. Qed.
Lemma uint_1 j z : number j z -> get_uint trunc j = Some (w32 z).
Proof. intros H. unfold get_uint. rewrite (proj2 (number_get j z) H). reflexivity. Qed.
Lemma uint_2 j k : get_uint trunc j = Some k -> exists z, number j z.
Proof. unfold get_uint. destruct (get_num trunc j) as [z|] eqn:E; [|discriminate]. intros _. exists z. now apply number_get. Qed.
Lemma int_1 j z : number j z -> get_int trunc j = Some (i32 z).
Proof. intros H. unfold get_int. rewrite (proj2 (number_get j z) H). cbn [option_map]. f_equal. unfold signed, i32, u32. rewrite le_value. reflexivity. Qed.
Lemma int_2 j k : get_int trunc j = Some k -> exists z, number j z.
Proof. unfold get_int. destruct (get_num trunc j) as [z|] eqn:E; [|discriminate]. intros _. exists z. now apply number_get. Qed.
Lemma bool_1 (j : json) b : truth j b -> exists v, get_bool j = Some v /\ b = v. Proof. intros []. eexists. split; reflexivity. Qed.
Lemma bool_2 (j : json) v : get_bool j = Some v -> exists b, truth j b. Proof. destruct j; try discriminate. intros _. eexists. constructor. Qed.
Lemma str_1 (j : json) b : words j b -> exists v, get_str j = Some v /\ b = v. Proof. intros []. eexists. split; reflexivity. Qed.
Lemma str_2 (j : json) v : get_str j = Some v -> exists b, words j b. Proof. destruct j; try discriminate. intros _. eexists. constructor. Qed.
Lemma first_64 {B} (es : list (Z * B)) k v : first w64 es k v <-> first u64 es (Z.of_N k) v.
Proof. apply (first_wrap w64 u64 Z.of_N); [|intros; lia]. intros z. unfold w64. rewrite Z2N.id; [reflexivity|]. apply Z.mod_pos_bound. lia. Qed.
Lemma first_32 {B} (es : list (Z * B)) k v : first w32 es k v <-> first u32 es (Z.of_N k) v.
Proof. apply (first_wrap w32 u32 Z.of_N); [|intros; lia]. intros z. unfold w32. rewrite Z2N.id; [reflexivity|]. apply Z.mod_pos_bound. lia. Qed.

Lemma table_of {K V} (ltb : K -> K -> bool) (SO : strict_order ltb) (m : list (K * V)) (P : K -> V -> Prop) : ordered ltb m -> (forall k v, mfind ltb k m = Some v <-> P k v) -> table m P.
Proof.
  intros O E. split; [exact (ordered_NoDup ltb SO m O)|]. intros k v. rewrite <- E. split; [apply (in_find ltb SO); exact O|apply (find_in ltb SO)].
Qed.
Lemma threads_read {B V} (gv : json -> option V) (rv : json -> B -> Prop) (f : B -> V) :
  (forall j b, rv j b -> exists v, gv j = Some v /\ f b = v) -> forall j es, listed count rv j es ->
  exists m, get_pairs N.ltb (get_ulong trunc) gv j = Some m /\ ordered N.ltb m /\ forall k v, mfind N.ltb k m = Some v <-> exists b, first u64 es (Z.of_N k) b /\ f b = v.
Proof.
  intros V1 j es H. destruct (pairs_read N.ltb N_order (get_ulong trunc) gv count rv w64 (fun b v => f b = v) ulong_1 V1 j es H) as (m & E & O & C1 & C2).
  exists m. split; [exact E|]. split; [exact O|]. intros k v. split.
  - intros Hk. destruct (C1 k v Hk) as (b & Hb & X). exists b. split; [apply first_64; exact Hb|exact X].
  - intros (b & Hb & <-). destruct (C2 k b) as (v & Hv & ->); [apply first_64; exact Hb|]. exact Hv.
Qed.

(** ** Members *)
Lemma doc_asc b m : document b m -> ascending m /\ Forall (fun kv => ~ In nul (fst kv) /\ sendable (snd kv)) m.
Proof. intros H. destruct (received_sendable unf64 _ _ H) as [HS _]. now apply sendable_obj in HS. Qed.
Lemma doc_obj b j : from_bson unf64 b = Some j -> exists m, j = JObj m /\ document b m.
Proof. intros H. destruct (received_sendable unf64 _ _ H) as [_ (m & ->)]. exists m. split; [reflexivity|exact H]. Qed.
Lemma field_find k m (j : json) : ascending m -> (field k m j <-> mfind str_ltb (text k) m = Some j).
Proof. intros A. unfold field. split; [apply (in_find str_ltb str_order); exact A|apply (find_in str_ltb str_order)]. Qed.
Lemma field_asc b m k st : document b m -> field k m (JObj st) -> ascending st.
Proof.
  intros D Fi. destruct (doc_asc _ _ D) as [_ HF]. rewrite Forall_forall in HF. destruct (HF _ Fi) as [_ HS]. cbn in HS. apply sendable_obj in HS. tauto.
Qed.

(** ** The trace state *)
Definition conf_holds (c : conf) (sp p : bool) (es : list (Z * bool)) : Prop :=
  cf_process c = p /\ cf_set c = sp /\ ordered N.ltb (cf_threads c) /\ forall k v, mfind N.ltb k (cf_threads c) = Some v <-> first u64 es (Z.of_N k) v.
Lemma conf_1 st p sp t es : ascending st -> field "p" st (JBool p) -> field "sp" st (JBool sp) -> field "t" st t -> listed count truth t es ->
  exists c, conf_of trunc (JObj st) = Some c /\ conf_holds c sp p es.
Proof.
  intros A Hp Hs Ht HL. destruct (threads_read get_bool truth (fun b => b) bool_1 t es HL) as (m & E & O & C).
  exists {| cf_process := p; cf_set := sp; cf_threads := m |}. split.
  - unfold conf_of, at_key. apply (field_find _ _ _ A) in Hp, Hs, Ht. rewrite Hp, Hs, Ht. cbn [bind get_bool]. rewrite E. reflexivity.
  - split; [reflexivity|]. split; [reflexivity|]. split; [exact O|]. intros k v. cbn [cf_threads]. rewrite C. split; [intros (b & H & <-); exact H|eauto].
Qed.
Lemma conf_2 j c : conf_of trunc j = Some c -> exists st p sp t es, j = JObj st /\ field "p" st (JBool p) /\ field "sp" st (JBool sp) /\ field "t" st t /\ listed count truth t es.
Proof.
  unfold conf_of, at_key. destruct j as [| | | | | |st]; try discriminate. intros H. exists st.
  destruct (mfind str_ltb (text "p") st) as [jp|] eqn:Ep; [|discriminate H]. cbn [bind] in H. destruct jp as [|p| | | | |]; try discriminate H. cbn [get_bool bind] in H.
  destruct (mfind str_ltb (text "sp") st) as [js|] eqn:Es; [|discriminate H]. cbn [bind] in H. destruct js as [|sp| | | | |]; try discriminate H. cbn [get_bool bind] in H.
  destruct (mfind str_ltb (text "t") st) as [jt|] eqn:Et; [|discriminate H]. cbn [bind] in H. destruct (get_pairs N.ltb (get_ulong trunc) get_bool jt) as [m|] eqn:Em; [|discriminate H].
  destruct (pairs_only N.ltb (get_ulong trunc) get_bool count truth ulong_2 bool_2 jt m Em) as (es & HL).
  exists p, sp, jt, es. split; [reflexivity|]. unfold field. split; [exact (find_in str_ltb str_order _ _ _ Ep)|]. split; [exact (find_in str_ltb str_order _ _ _ Es)|]. split; [exact (find_in str_ltb str_order _ _ _ Et)|exact HL].
Qed.

Definition asked_is (a : asked) (r : request) : Prop :=
  match a, r with Question, Ask => True | Change c, Set_ sp p es => conf_holds c sp p es | _, _ => False end.
Lemma asked_1 q r : reads unf64 trunc q r -> exists a, conf_asked unf64 trunc q = Some a /\ asked_is a r.
Proof.
  intros [m c D Hc Nc|m st p sp t es D Hc Hst Hp Hs Ht HL]; destruct (doc_asc _ _ D) as [A _]; unfold conf_asked; rewrite D; cbn [bind]; unfold at_key.
  - apply (field_find _ _ _ A) in Hc. rewrite Hc. cbn [bind get_str]. destruct (bytes_eqb c (text "set")) eqn:E; [apply bytes_eqb_eq in E; destruct (Nc E)|]. exists Question. split; [reflexivity|exact I].
  - pose proof (field_asc _ _ _ _ D Hst) as A'. apply (field_find _ _ _ A) in Hc, Hst. rewrite Hc, Hst. cbn [bind get_str]. replace (bytes_eqb (text "set") (text "set")) with true by reflexivity.
    destruct (conf_1 st p sp t es A' Hp Hs Ht HL) as (c & -> & Hh). exists (Change c). split; [reflexivity|exact Hh].
Qed.
Lemma asked_2 q a : conf_asked unf64 trunc q = Some a -> exists r, reads unf64 trunc q r.
Proof.
  unfold conf_asked. intros H. destruct (from_bson unf64 q) as [j|] eqn:E; [|discriminate H]. destruct (doc_obj _ _ E) as (m & -> & D). cbn [bind at_key] in H.
  destruct (mfind str_ltb (text "cmd") m) as [jc|] eqn:Ec; [|discriminate H]. cbn [bind] in H. destruct jc as [| | | |c| |]; try discriminate H. cbn [get_str bind] in H. apply (find_in str_ltb str_order) in Ec.
  destruct (bytes_eqb c (text "set")) eqn:Es.
  - apply bytes_eqb_eq in Es. subst c. destruct (mfind str_ltb (text "state") m) as [js|] eqn:Est; [|discriminate H]. cbn [bind] in H. destruct (conf_of trunc js) as [c|] eqn:Eco; [|discriminate H].
    destruct (conf_2 _ _ Eco) as (st & p & sp & t & es & -> & Hp & Hsp & Ht & HL). exists (Set_ sp p es). apply (rd_set unf64 trunc q m st p sp t es D Ec); auto. exact (find_in str_ltb str_order _ _ _ Est).
  - exists Ask. apply (rd_ask unf64 trunc q m c D Ec). intros ->. discriminate Es.
Qed.

(** A payload is at most one request. *)
Lemma listed_fun {A B} (rk : json -> A -> Prop) (rv : json -> B -> Prop) : (forall j a a', rk j a -> rk j a' -> a = a') -> (forall j b b', rv j b -> rv j b' -> b = b') ->
  forall j es es', listed rk rv j es -> listed rk rv j es' -> es = es'.
Proof.
  intros HK HV j es es' H. destruct H as [l es H]. intros H'. inversion H' as [l' es0 HF EL EE]. subst. clear H'. revert es' HF.
  induction H as [|x [a b] l es (ja & jb & rest & -> & Ha & Hb) H IH]; intros es' HF; inversion HF as [|? [a' b'] ? es0 (ja' & jb' & rest' & E & Ha' & Hb') HF']; subst; [reflexivity|].
  injection E as <- <- <-. cbn [fst snd] in *. rewrite (HK _ _ _ Ha Ha'), (HV _ _ _ Hb Hb'), (IH _ HF'). reflexivity.
Qed.
Lemma count_fun j z z' : count j z -> count j z' -> z = z'.
Proof. intros H H'. destruct H; inversion H'; reflexivity. Qed.
Lemma truth_fun (j : json) z z' : truth j z -> truth j z' -> z = z'.
Proof. intros H H'. destruct H; inversion H'; reflexivity. Qed.
Theorem one_request q r r' : reads unf64 trunc q r -> reads unf64 trunc q r' -> r = r'.
Proof.
  assert (FF : forall m k (x y : json), ascending m -> field k m x -> field k m y -> x = y).
  { intros m k x y A Hx Hy. apply (field_find _ _ _ A) in Hx, Hy. rewrite Hx in Hy. injection Hy as <-. reflexivity. }
  intros [m c D Hc Nc|m st p sp t es D Hc Hst Hp Hs Ht HL] [m' c' D' Hc' Nc'|m' st' p' sp' t' es' D' Hc' Hst' Hp' Hs' Ht' HL']; destruct (doc_asc _ _ D) as [A _];
    assert (m' = m) by (unfold Foreign_spec.document in D, D'; rewrite D in D'; injection D' as <-; reflexivity); subst m'.
  - reflexivity.
  - pose proof (FF _ _ _ _ A Hc Hc') as X. injection X as X. destruct (Nc X).
  - pose proof (FF _ _ _ _ A Hc Hc') as X. injection X as X. destruct (Nc' (eq_sym X)).
  - pose proof (FF _ _ _ _ A Hst Hst') as X. injection X as <-. pose proof (field_asc _ _ _ _ D Hst) as A'.
    pose proof (FF _ _ _ _ A' Hp Hp') as X. injection X as <-. pose proof (FF _ _ _ _ A' Hs Hs') as X. injection X as <-. pose proof (FF _ _ _ _ A' Ht Ht') as <-.
    rewrite (listed_fun _ _ count_fun truth_fun t es es' HL HL'). reflexivity.
Qed.

(** What an answer shows. *)
Lemma reply_states ls s r : Forall not_late ls -> grun ls cfg0 = Some s -> small_ids (g_map s) ->
  exists b, conf_answer f64 (fst (snd (c_handle r s))) (nkeys (snd (snd (c_handle r s)))) = WReply b /\
    conf_client unf64 trunc b = Some (g_process (fst (c_handle r s)), nkeys (snd (snd (c_handle r s)))) /\
    g_map (fst (c_handle r s)) = g_map s.
Proof.
  intros HF E HM. assert (Hg : g_map (fst (c_handle r s)) = g_map s).
  { destruct r as [|sp p ths]; [reflexivity|]. unfold c_handle. cbn [fst]. fold (store_all ths (if sp then store_process p s else s)). destruct (store_all_frame ths (if sp then store_process p s else s)) as (H1 & _ & _). rewrite H1. now destruct sp. }
  pose proof (handle_increasing ls s r HF E) as HIr. pose proof (reply_keys r s) as HK.
  assert (HSr : small_ids (snd (snd (c_handle r s)))).
  { rewrite Hg in HK. unfold small_ids in *. rewrite Forall_forall in *. intros e He. assert (Hin : In (fst e) (map fst (g_map s))) by (rewrite <- HK; now apply in_map).
    apply in_map_iff in Hin as (w & Ew & Hw). rewrite <- Ew. auto. }
  destruct (conf_answered f64 unf64 trunc E8 (fst (snd (c_handle r s))) (nkeys (snd (snd (c_handle r s)))) (table_nat _ HIr HSr)) as (b & m & Eb & Ec & [Pm' Sm']).
  assert (m = nkeys (snd (snd (c_handle r s)))) by (symmetry; apply sorted_unique; auto; now apply increasing_N). subst m.
  exists b. split; [exact Eb|]. split; [exact Ec|exact Hg].
Qed.
Lemma is_fun s i b b' : thread_is s i b -> thread_is s i b' -> b = b'.
Proof. intros (t & H1 & _ & H3) (t' & H1' & _ & H3'). rewrite H1 in H1'. injection H1' as <-. congruence. Qed.
Lemma query_states ls s : Forall not_late ls -> grun ls cfg0 = Some s -> all_states s (nkeys (snd (snd (c_handle CQuery s)))).
Proof.
  intros HF E. pose proof (remote_query ls s HF E) as Q. destruct (c_handle CQuery s) as [s' reply]. destruct Q as (_ & _ & ND & Keys & Snd). cbn [snd]. split.
  - unfold nkeys. rewrite map_map. cbn [fst]. clear - ND. induction (snd reply) as [|[k v] l IH]; [constructor|]. cbn [map fst] in *. inversion ND; subst. constructor; [|auto].
    intros Hin. apply in_map_iff in Hin as ([k' v'] & E' & Hin). cbn in E'. apply Nat2N.inj in E'. subst k'. match goal with H : ~ In _ _ |- _ => apply H end. change k with (fst (k, v')). now apply in_map.
  - intros k v. unfold nkeys. rewrite in_map_iff. split.
    + intros ([tid b] & Eq & Hin). cbn in Eq. injection Eq as <- <-. assert (Hk : In tid (map fst (snd reply))) by (change tid with (fst (tid, b)); now apply in_map).
      apply Keys in Hk. destruct Hk as (i & t & Ht & Lt & Ct & <-). exists i, t. split; [exact Ht|]. split; [exact Lt|]. split; [exact Ct|]. split; [reflexivity|]. exact (Snd i t b Ht Lt Hin).
    + intros (i & t & Ht & Lt & Ct & -> & Ti). assert (Hk : In (t_tid t) (map fst (snd reply))) by (apply Keys; exists i, t; auto). apply in_map_iff in Hk as ([tid b] & Eq & Hin). cbn in Eq. subst tid.
      pose proof (Snd i t b Ht Lt Hin) as Ti'. rewrite (is_fun _ _ _ _ Ti Ti'). exists (t_tid t, b). split; [reflexivity|exact Hin].
Qed.
Lemma asked_in ths tid : NoDup (map fst ths) -> forall v, Config_spec.asked ths tid = Some v <-> In (tid, v) ths.
Proof.
  induction ths as [|[k x] ths IH] using rev_ind; intros ND v; [split; [discriminate|intros []]|]. rewrite asked_snoc. cbn [fst snd]. rewrite map_app in ND. cbn [map fst] in ND.
  apply NoDup_remove in ND. rewrite app_nil_r in ND. destruct ND as (ND & Nk). rewrite in_app_iff. destruct (Nat.eqb_spec k tid) as [->|N].
  - split; [intros Ev; injection Ev as <-; right; left; reflexivity|]. intros [H|[H|[]]]; [destruct Nk; change tid with (fst (tid, v)); now apply in_map|injection H as <-; reflexivity].
  - rewrite (IH ND v). split; [auto|]. intros [H|[H|[]]]; [exact H|injection H as -> _; destruct (N eq_refl)].
Qed.

Theorem conf_any ls s q : Forall not_late ls -> grun ls cfg0 = Some s -> small_ids (g_map s) ->
  (conf_handle f64 unf64 trunc s q = (s, WThrows) /\ forall r, ~ reads unf64 trunc q r) \/
  (exists r s' b l, reads unf64 trunc q r /\ conf_handle f64 unf64 trunc s q = (s', WReply b) /\ changes r s s' /\ conf_client unf64 trunc b = Some (g_process s', l) /\ all_states s' l).
Proof.
  intros HF E HM. unfold conf_handle. destruct (conf_asked unf64 trunc q) as [a|] eqn:Ea.
  - right. destruct (asked_2 _ _ Ea) as (r & Hr). destruct (asked_1 _ _ Hr) as (a' & Ea' & Ha). rewrite Ea in Ea'. injection Ea' as <-.
    destruct (reply_states ls s (creq_of a) HF E HM) as (b & Eb & Ec & Hg). remember (creq_of a) as cr eqn:Ecr.
    exists r, (fst (c_handle cr s)), b, (nkeys (snd (snd (c_handle cr s)))). split; [exact Hr|]. split; [|split; [|split; [exact Ec|]]].
    + destruct (c_handle cr s) as [s' [p ts]]. cbn [fst snd] in *. rewrite Eb. reflexivity.
    + destruct a as [|c]; destruct r as [|sp p es]; try destruct Ha; subst cr; cbn [creq_of]; [reflexivity|]. destruct H0 as (Hs & Ho & Hc).
      pose proof (remote_change ls s (cf_set c) (cf_process c) (map (fun e => (N.to_nat (fst e), snd e)) (cf_threads c)) HF E) as Q. pose proof (remote_query ls s HF E) as Q0.
      assert (P' : g_process (fst (c_handle (CChange (cf_set c) (cf_process c) (map (fun e => (N.to_nat (fst e), snd e)) (cf_threads c))) s)) = fst (snd (c_handle (CChange (cf_set c) (cf_process c) (map (fun e => (N.to_nat (fst e), snd e)) (cf_threads c))) s))) by reflexivity.
      destruct (c_handle (CChange _ _ _) s) as [s' reply]. destruct (c_handle CQuery s) as [s0 reply0]. cbn [fst snd] in *. destruct Q as (Q1 & _ & _ & _ & _ & Q2 & _). destruct Q0 as (_ & Q0 & _).
      split; [rewrite P', Q1, Q0, Hs, H; reflexivity|]. intros i t b0 Ht Ti. specialize (Q2 i t b0 Ht Ti). destruct (t_cleanup t); [|exact Q2].
      assert (ND : NoDup (map fst (map (fun e : N * bool => (N.to_nat (fst e), snd e)) (cf_threads c)))).
      { rewrite map_map. cbn [fst]. pose proof (ordered_NoDup N.ltb N_order _ Ho) as ND. clear - ND. induction (cf_threads c) as [|[k v] l IH]; [constructor|]. cbn [map fst] in *. inversion ND; subst. constructor; [|auto].
        intros Hin. apply in_map_iff in Hin as ([k' v'] & E' & Hin). cbn in E'. apply N2Nat.inj in E'. subst k'. match goal with H : ~ In _ _ |- _ => apply H end. change k with (fst (k, v')). now apply in_map. }
      assert (AK : forall v, Config_spec.asked (map (fun e : N * bool => (N.to_nat (fst e), snd e)) (cf_threads c)) (t_tid t) = Some v <-> first u64 es (Z.of_nat (t_tid t)) v).
      { intros v. rewrite (asked_in _ _ ND). rewrite <- nat_N_Z, <- Hc. split.
        - intros Hin. apply in_map_iff in Hin as ([k v'] & E' & Hin). cbn in E'. injection E' as E' ->. rewrite <- E', N2Nat.id. apply (in_find N.ltb N_order); assumption.
        - intros Hf. apply (find_in N.ltb N_order) in Hf. apply in_map_iff. exists (N.of_nat (t_tid t), v). split; [cbn; now rewrite Nat2N.id|exact Hf]. }
      destruct (Config_spec.asked _ (t_tid t)) as [v0|] eqn:Ek.
      * split; [|intros N; destruct (N v0); apply AK; reflexivity]. intros v Hv. apply AK in Hv. injection Hv as <-. exact Q2.
      * split; [|intros _; exact Q2]. intros v Hv. apply AK in Hv. discriminate Hv.
    + assert (Q : exists ls', Forall not_late ls' /\ grun ls' cfg0 = Some (fst (c_handle cr s)) /\ snd (c_handle cr s) = snd (c_handle CQuery (fst (c_handle cr s)))).
      { destruct cr as [|sp p ths]; [exists ls; auto|]. pose proof (remote_change ls s sp p ths HF E) as Q. destruct (c_handle (CChange sp p ths) s) as [s' reply]. destruct Q as (_ & _ & _ & Q1 & _ & _ & ls' & L1 & L2). exists ls'. auto. }
      destruct Q as (ls' & L1 & L2 & ->). exact (query_states ls' _ L1 L2).
  - left. split; [reflexivity|]. intros r Hr. destruct (asked_1 _ _ Hr) as (a & Ha & _). rewrite Ea in Ha. discriminate Ha.
Qed.

(** ** The clients *)
Theorem names_any b : (forall es, says_names unf64 trunc b es -> exists m, mapping_client unf64 trunc b = Some m /\
    NoDup (map fst m) /\ Forall (fun e => NoDup (map fst (snd e))) m /\
    (forall pid, In pid (map fst m) <-> exists t, first i32 es pid t) /\
    (forall pid id nm, (exists t, In (pid, t) m /\ In (id, nm) t) <-> exists t, first i32 es pid t /\ first u32 t (Z.of_N id) nm)) /\
  ((forall es, ~ says_names unf64 trunc b es) -> mapping_client unf64 trunc b = None).
Proof.
  assert (V1 : forall j t, listed number words j t -> exists m, get_pairs N.ltb (get_uint trunc) get_str j = Some m /\ (ordered N.ltb m /\ forall k v, mfind N.ltb k m = Some v <-> first u32 t (Z.of_N k) v)).
  { intros j t H. destruct (pairs_read N.ltb N_order (get_uint trunc) get_str number words w32 eq uint_1 str_1 j t H) as (m & E & O & C1 & C2). exists m. split; [exact E|]. split; [exact O|]. intros k v. rewrite <- first_32. split.
    - intros Hk. destruct (C1 k v Hk) as (b0 & Hb & <-). exact Hb.
    - intros Hf. destruct (C2 k v Hf) as (v' & Hv & <-). exact Hv. }
  split.
  - intros es (m & j & D & Hf & HL). destruct (doc_asc _ _ D) as [A _].
    destruct (pairs_read Z.ltb Names_proofs.Z_order (get_int trunc) (get_pairs N.ltb (get_uint trunc) get_str) number (listed number words) i32 _ int_1 V1 j es HL) as (r & E & O & C1 & C2).
    exists r. split; [unfold mapping_client; rewrite D; cbn [bind]; unfold member; apply (field_find _ _ _ A) in Hf; rewrite Hf; exact E|]. split; [exact (ordered_NoDup Z.ltb Names_proofs.Z_order _ O)|]. split; [|split].
    + apply Forall_forall. intros [p t] Hin. apply (in_find Z.ltb Names_proofs.Z_order) in Hin; [|exact O]. destruct (C1 _ _ Hin) as (b0 & _ & O' & _). exact (ordered_NoDup N.ltb N_order _ O').
    + intros pid. rewrite <- (find_keys Z.ltb Names_proofs.Z_order _ _ O). split.
      * intros Hn. destruct (mfind Z.ltb pid r) as [t|] eqn:Ep; [|destruct (Hn eq_refl)]. destruct (C1 _ _ Ep) as (t' & Ht & _). eauto.
      * intros (t & Ht). destruct (C2 _ _ Ht) as (v & Hv & _). rewrite Hv. discriminate.
    + intros pid id nm. split.
      * intros (t & Hin & Hin'). apply (in_find Z.ltb Names_proofs.Z_order) in Hin; [|exact O]. destruct (C1 _ _ Hin) as (t' & Ht & O' & C'). exists t'. split; [exact Ht|]. apply C'. apply (in_find N.ltb N_order); assumption.
      * intros (t & Ht & Hn). destruct (C2 _ _ Ht) as (v & Hv & O' & C'). exists v. split; [exact (find_in Z.ltb Names_proofs.Z_order _ _ _ Hv)|]. apply C' in Hn. exact (find_in N.ltb N_order _ _ _ Hn).
  - intros N. destruct (mapping_client unf64 trunc b) as [r|] eqn:E; [|reflexivity]. exfalso. unfold mapping_client in E. destruct (from_bson unf64 b) as [j|] eqn:Eb; [|discriminate E].
    destruct (doc_obj _ _ Eb) as (m & -> & D). cbn [bind] in E. unfold member in E. destruct (mfind str_ltb (text "mapping") m) as [jm|] eqn:Em; [|discriminate E].
    assert (V2 : forall j v, get_pairs N.ltb (get_uint trunc) get_str j = Some v -> exists t, listed number words j t) by (intros j v H; exact (pairs_only N.ltb (get_uint trunc) get_str number words uint_2 str_2 j v H)).
    destruct (pairs_only Z.ltb (get_int trunc) _ number (listed number words) int_2 V2 jm r E) as (es & HL). apply (N es). exists m, jm. split; [exact D|]. split; [exact (find_in str_ltb str_order _ _ _ Em)|exact HL].
Qed.

Theorem info_any b : (forall pid nm es, says_info unf64 trunc b pid nm es -> exists ts, info_client unf64 trunc b = Some (i32 pid, nm, ts) /\ table ts (fun k v => first u64 es (Z.of_N k) v)) /\
  ((forall pid nm es, ~ says_info unf64 trunc b pid nm es) -> info_client unf64 trunc b = None).
Proof.
  split.
  - intros pid nm es (m & jp & jt & D & Hn & Hp & Np & Ht & HL). destruct (doc_asc _ _ D) as [A _]. destruct (threads_read get_str words (fun b => b) str_1 jt es HL) as (ts & E & O & C).
    exists ts. split.
    + unfold info_client. rewrite D. cbn [bind]. unfold member. apply (field_find _ _ _ A) in Hn, Hp, Ht. rewrite Hn, Hp, Ht. cbn [get_str bind]. rewrite E. cbn [bind]. rewrite (int_1 _ _ Np). reflexivity.
    + apply (table_of N.ltb N_order); [exact O|]. intros k v. rewrite C. split; [intros (b0 & H & <-); exact H|eauto].
  - intros N. destruct (info_client unf64 trunc b) as [r|] eqn:E; [|reflexivity]. exfalso. unfold info_client in E. destruct (from_bson unf64 b) as [j|] eqn:Eb; [|discriminate E].
    destruct (doc_obj _ _ Eb) as (m & -> & D). cbn [bind] in E. unfold member in E.
    destruct (mfind str_ltb (text "name") m) as [jn|] eqn:En; [|discriminate E]. destruct jn as [| | | |nm| |]; try discriminate E. cbn [get_str bind] in E.
    destruct (mfind str_ltb (text "threads") m) as [jt|] eqn:Et; [|discriminate E]. destruct (get_pairs N.ltb (get_ulong trunc) get_str jt) as [ts|] eqn:Ets; [|discriminate E]. cbn [bind] in E.
    destruct (mfind str_ltb (text "pid") m) as [jp|] eqn:Ep; [|discriminate E]. destruct (get_int trunc jp) as [p|] eqn:Ei; [|discriminate E]. destruct (int_2 _ _ Ei) as (z & Hz).
    destruct (pairs_only N.ltb (get_ulong trunc) get_str count words ulong_2 str_2 jt ts Ets) as (es & HL). apply (N z nm es). exists m, jp, jt. unfold field.
    split; [exact D|]. split; [exact (find_in str_ltb str_order _ _ _ En)|]. split; [exact (find_in str_ltb str_order _ _ _ Ep)|]. split; [exact Hz|]. split; [exact (find_in str_ltb str_order _ _ _ Et)|exact HL].
Qed.

Theorem state_any b : (forall p es, says_state unf64 trunc b p es -> exists ts, conf_client unf64 trunc b = Some (p, ts) /\ table ts (fun k v => first u64 es (Z.of_N k) v)) /\
  ((forall p es, ~ says_state unf64 trunc b p es) -> conf_client unf64 trunc b = None).
Proof.
  split.
  - intros p es (m & st & sp & t & D & Hst & Hp & Hs & Ht & HL). destruct (doc_asc _ _ D) as [A _]. pose proof (field_asc _ _ _ _ D Hst) as A'.
    destruct (conf_1 st p sp t es A' Hp Hs Ht HL) as (c & Ec & H1 & _ & O & C). exists (cf_threads c). split.
    + unfold conf_client. rewrite D. cbn [bind at_key]. apply (field_find _ _ _ A) in Hst. rewrite Hst. cbn [bind]. rewrite Ec. cbn [bind]. rewrite H1. reflexivity.
    + apply (table_of N.ltb N_order); [exact O|exact C].
  - intros N. destruct (conf_client unf64 trunc b) as [r|] eqn:E; [|reflexivity]. exfalso. unfold conf_client in E. destruct (from_bson unf64 b) as [j|] eqn:Eb; [|discriminate E].
    destruct (doc_obj _ _ Eb) as (m & -> & D). cbn [bind at_key] in E. destruct (mfind str_ltb (text "state") m) as [js|] eqn:Es; [|discriminate E]. cbn [bind] in E. destruct (conf_of trunc js) as [c|] eqn:Ec; [|discriminate E].
    destruct (conf_2 _ _ Ec) as (st & p & sp & t & es & -> & Hp & Hsp & Ht & HL). apply (N p es). exists m, st, sp, t. split; [exact D|]. split; [exact (find_in str_ltb str_order _ _ _ Es)|]. auto.
Qed.
End Foreign.
