From Coq Require Import List Arith NArith Ascii Bool Lia Sorted.
Import ListNotations.
From Verif Require Import Protocol_model UnixSystem_model UnixSystem_proofs OMap_model OMap_proofs Manager_model Manager_spec.

Record MInv (s : manager) : Prop := {
  mi_ft : ordered str_ltb (mg_factories s);
  mi_ot : ordered Nat.ltb (mg_transports s);
  mi_oe : ordered Nat.ltb (mg_endpoints s);
  mi_inj : forall h1 h2 t, holds s h1 t -> holds s h2 t -> h1 = h2;
  mi_same : forall t, (exists h, holds s h t) <-> (exists eps, reports s t eps);
  mi_next : forall h t, holds s h t -> t < mg_next s;
}.

Lemma in_tinsert {V} k v (m : list (nat * V)) k0 v0 : ordered Nat.ltb m ->
  In (k0, v0) (tinsert k v m) <-> (k0 = k /\ v0 = v) \/ (k0 <> k /\ In (k0, v0) m).
Proof.
  intros HO. assert (HO' := ordered_insert Nat.ltb nat_order k v m HO). unfold tinsert. split.
  - intros H. apply (in_find _ nat_order) in H; [|exact HO']. destruct (Nat.eq_dec k0 k) as [->|Hn].
    + rewrite (find_insert_same _ nat_order) in H. left. split; congruence.
    + rewrite (find_insert_other _ nat_order) in H by auto. right. split; auto. now apply (find_in _ nat_order).
  - intros [[-> ->]|[Hn H]]; apply (find_in _ nat_order).
    + apply (find_insert_same _ nat_order).
    + rewrite (find_insert_other _ nat_order) by auto. now apply (in_find _ nat_order).
Qed.
Lemma in_terase {V} k (m : list (nat * V)) k0 v0 : ordered Nat.ltb m ->
  In (k0, v0) (terase k m) <-> k0 <> k /\ In (k0, v0) m.
Proof.
  intros HO. assert (HO' := ordered_erase Nat.ltb nat_order k m HO). unfold terase. split.
  - intros H. destruct (Nat.eq_dec k0 k) as [->|Hn].
    + apply (in_find _ nat_order) in H; [|exact HO']. rewrite (find_erase_same _ nat_order) in H by exact HO. discriminate.
    + split; auto. apply in_erase in H. exact H.
  - intros [Hn H]. apply (find_in _ nat_order). rewrite (find_erase_other _ nat_order) by auto. now apply (in_find _ nat_order).
Qed.
Lemma in_key_unique {V} (m : list (nat * V)) k v1 v2 : ordered Nat.ltb m -> In (k, v1) m -> In (k, v2) m -> v1 = v2.
Proof. intros HO H1 H2. apply (in_find _ nat_order) in H1; auto. apply (in_find _ nat_order) in H2; auto. congruence. Qed.
Lemma tfind_none {V} (m : list (nat * V)) k : ordered Nat.ltb m -> tfind k m = None <-> forall v, ~ In (k, v) m.
Proof.
  intros HO. unfold tfind. split.
  - intros E v H. apply (in_find _ nat_order) in H; auto. congruence.
  - intros H. destruct (mfind Nat.ltb k m) as [v|] eqn:E; auto. apply (find_in _ nat_order) in E. destruct (H v E).
Qed.
Lemma tfind_some {V} (m : list (nat * V)) k v : ordered Nat.ltb m -> tfind k m = Some v <-> In (k, v) m.
Proof. intros HO. unfold tfind. split; [apply (find_in _ nat_order)|apply (in_find _ nat_order); auto]. Qed.

(** ** Making endpoints *)
Lemma make_all_ordered fs mk names : forall i eps, ordered str_ltb eps -> ordered str_ltb (fst (make_all fs mk i names eps)).
Proof.
  induction names as [|n names IH]; intros i eps HO; cbn; auto. destruct (mfind str_ltb n fs); [|auto]. destruct (mk i); cbn; auto.
  apply IH. apply ordered_insert; auto using str_order.
Qed.

Lemma make_all_sound fs mk names n e : forall i eps, In (n, e) (fst (make_all fs mk i names eps)) ->
  In (n, e) eps \/ exists j, nth_error names j = Some n /\ mfind str_ltb n fs <> None /\ mk (i + j) = Makes e.
Proof.
  induction names as [|m names IH]; intros i eps H; cbn in H; auto.
  assert (shift : forall eps0, In (n, e) (fst (make_all fs mk (S i) names eps0)) ->
     In (n, e) eps0 \/ exists j, nth_error (m :: names) j = Some n /\ mfind str_ltb n fs <> None /\ mk (i + j) = Makes e).
  { intros eps0 H0. destruct (IH _ _ H0) as [?|(j & H1 & H2 & H3)]; auto. right. exists (S j). rewrite <- plus_n_Sm. auto. }
  destruct (mfind str_ltb m fs) as [f|] eqn:Ef; [|exact (shift _ H)].
  destruct (mk i) as [e'| |] eqn:Ek; [|exact (shift _ H)|cbn in H; auto].
  destruct (shift _ H) as [H1|H1]; auto. apply in_insert in H1. destruct H1 as [H1|H1]; auto. injection H1 as -> ->.
  right. exists 0. rewrite Nat.add_0_r. cbn. split; auto. split; congruence.
Qed.

Lemma make_all_keeps fs mk names n : forall i eps, In n (map fst eps) -> ordered str_ltb eps -> In n (map fst (fst (make_all fs mk i names eps))).
Proof.
  induction names as [|m names IH]; intros i eps H HO; cbn; auto. destruct (mfind str_ltb m fs); [|auto]. destruct (mk i) as [e| |]; cbn; auto.
  apply IH; [|apply ordered_insert; auto using str_order].
  apply (find_keys _ str_order); [apply ordered_insert; auto using str_order|]. destruct (list_eq_dec Ascii.ascii_dec n m) as [->|Hn].
  - rewrite (find_insert_same _ str_order). discriminate.
  - rewrite (find_insert_other _ str_order) by auto. apply (find_keys _ str_order); auto.
Qed.

Lemma make_all_complete fs mk names : forall i eps, snd (make_all fs mk i names eps) = false -> ordered str_ltb eps ->
  forall j n e, nth_error names j = Some n -> mfind str_ltb n fs <> None -> mk (i + j) = Makes e ->
  In n (map fst (fst (make_all fs mk i names eps))).
Proof.
  induction names as [|m names IH]; intros i eps HT HO j n e Hj Hf Hk; [destruct j; discriminate|].
  destruct j as [|j].
  - cbn in Hj. injection Hj as ->. rewrite Nat.add_0_r in Hk. cbn in *. destruct (mfind str_ltb n fs) as [f|]; [|congruence]. rewrite Hk in *.
    apply make_all_keeps; [|apply ordered_insert; auto using str_order].
    apply (find_keys _ str_order); [apply ordered_insert; auto using str_order|]. rewrite (find_insert_same _ str_order). discriminate.
  - rewrite <- plus_n_Sm in Hk. cbn in *. destruct (mfind str_ltb m fs) as [f|]; [|eapply (IH (S i)); eauto].
    destruct (mk i) as [e'| |]; [eapply (IH (S i)); eauto; apply ordered_insert; auto using str_order|eapply (IH (S i)); eauto|discriminate].
Qed.

Lemma make_all_gentle fs mk names : (forall i, mk i <> MakingThrows) -> forall i eps, snd (make_all fs mk i names eps) = false.
Proof.
  intros H. induction names as [|n names IH]; intros i eps; cbn; auto. destruct (mfind str_ltb n fs); auto. specialize (H i). destruct (mk i); auto. congruence.
Qed.

(** ** Cleaning up *)
Lemma clean_spec alive snap : forall s, MInv s -> (forall h t, In (h, t) snap -> holds s h t) -> NoDup (map fst snap) ->
  exists s', clean alive snap s = MDone s' /\ MInv s' /\ mg_next s' = mg_next s /\ mg_factories s' = mg_factories s /\
    (forall h t, holds s' h t <-> holds s h t /\ (In (h, t) snap -> alive t = true)) /\
    (forall t eps, reports s' t eps <-> reports s t eps /\ (forall h, In (h, t) snap -> alive t = true)).
Proof.
  induction snap as [|[h0 t0] snap IH]; intros s HI Hsub Hnd.
  - exists s. split; [reflexivity|]. split; [exact HI|]. split; [reflexivity|]. split; [reflexivity|]. split; intros; cbn; tauto.
  - cbn [clean]. inversion Hnd as [|? ? Hn0 Hnd']; subst.
    assert (Hnot : forall t, ~ In (h0, t) snap). { intros t Hin. apply Hn0. apply (in_map fst) in Hin. exact Hin. }
    destruct (alive t0) eqn:Ea.
    + destruct (IH s HI) as (s' & E & HI' & N & F & HT & HE); [intros; apply Hsub; now right|exact Hnd'|].
      exists s'. do 4 (split; [assumption|]). split.
      * intros h t. rewrite HT. split; intros [H1 H2]; split; auto.
        -- intros [X|X]; [injection X as <- <-; auto|auto].
        -- intros Hin. apply H2. now right.
      * intros t eps. rewrite HE. split; intros [H1 H2]; split; auto.
        -- intros h [X|X]; [injection X as <- <-; auto|eauto].
        -- intros h Hin. apply (H2 h). now right.
    + assert (H0 : holds s h0 t0) by (apply Hsub; now left).
      destruct HI as [I0 I1 I2 I3 I4 I5]. destruct (proj1 (I4 t0) (ex_intro _ h0 H0)) as (eps0 & Hr0).
      rewrite (proj2 (tfind_some _ _ _ I2) Hr0).
      set (s1 := {| mg_factories := mg_factories s; mg_transports := terase h0 (mg_transports s); mg_endpoints := terase t0 (mg_endpoints s); mg_next := mg_next s |}).
      assert (S1 : forall h t, holds s1 h t <-> h <> h0 /\ holds s h t) by (intros; apply in_terase; exact I1).
      assert (S2 : forall t eps, reports s1 t eps <-> t <> t0 /\ reports s t eps) by (intros; apply in_terase; exact I2).
      assert (I' : MInv s1).
      { constructor; cbn; auto.
        - apply ordered_erase; auto using nat_order.
        - apply ordered_erase; auto using nat_order.
        - intros h1 h2 t X1 X2. apply S1 in X1, X2. destruct X1, X2. eauto.
        - intros t. split.
          + intros (h & X). apply S1 in X. destruct X as [X1 X2]. destruct (proj1 (I4 t) (ex_intro _ h X2)) as (eps & X3).
            exists eps. apply S2. split; auto. intros ->. apply X1. eapply I3; eauto.
          + intros (eps & X). apply S2 in X. destruct X as [X1 X2]. destruct (proj2 (I4 t) (ex_intro _ eps X2)) as (h & X3).
            exists h. apply S1. split; auto. intros ->. apply X1. eapply in_key_unique; eauto.
        - intros h t X. apply S1 in X. destruct X. eauto. }
      destruct (IH s1 I') as (s' & E & HI' & N & F & HT & HE).
      { intros h t Hin. apply S1. split; [intros ->; exact (Hnot t Hin)|apply Hsub; now right]. }
      { exact Hnd'. }
      exists s'. split; [exact E|]. split; [exact HI'|]. split; [exact N|]. split; [exact F|]. split.
      * intros h t. rewrite HT, S1. split.
        -- intros [[X1 X2] X3]. split; auto. intros [X|X]; [injection X as <- <-; congruence|auto].
        -- intros [X1 X2]. split; [split; auto|intros X; apply X2; now right].
           intros ->. assert (t = t0) by (eapply in_key_unique; eauto). subst t. rewrite X2 in Ea by (now left). discriminate.
      * intros t eps. rewrite HE, S2. split.
        -- intros [[X1 X2] X3]. split; auto. intros h [X|X]; [injection X as <- <-; congruence|eauto].
        -- intros [X1 X2]. split; [split; auto|intros h X; apply (X2 h); now right].
           intros ->. rewrite (X2 h0) in Ea by (now left). discriminate.
Qed.

(** ** Connecting *)
(** How the endpoints of a new transport come about. *)
Definition endpoints_of (fs : list (bytes * nat)) (intro : introspection) (mk : nat -> making) (eps : list (bytes * nat)) : Prop :=
  ordered str_ltb eps /\
  match intro with
  | Answers names =>
      (forall n e, In (n, e) eps -> exists i, nth_error names i = Some n /\ (exists f, In (n, f) fs) /\ mk i = Makes e) /\
      (forall i n e, nth_error names i = Some n -> (exists f, In (n, f) fs) -> mk i = Makes e -> exists e', In (n, e') eps)
  | NoAnswer => eps = []
  | Throws => False
  end.

Inductive connected_to (h : nat) (a : attempt) (s s' : manager) : Prop :=
  | CT_no : s' = s -> ((exists t, holds s h t) \/ exists intro mk, a = ATransport false intro mk) -> connected_to h a s s'
  | CT_yes intro mk eps : a = ATransport true intro mk -> (forall t, ~ holds s h t) ->
      endpoints_of (mg_factories s) intro mk eps -> mg_factories s' = mg_factories s -> mg_next s' = S (mg_next s) ->
      (forall h0 t, holds s' h0 t <-> (h0 = h /\ t = mg_next s) \/ holds s h0 t) ->
      (forall t e, reports s' t e <-> (t = mg_next s /\ e = eps) \/ reports s t e) -> connected_to h a s s'.

Lemma add_transport_inv h eps s : MInv s -> (forall t, ~ holds s h t) ->
  let s' := {| mg_factories := mg_factories s; mg_transports := tinsert h (mg_next s) (mg_transports s); mg_endpoints := tinsert (mg_next s) eps (mg_endpoints s); mg_next := S (mg_next s) |} in
  MInv s' /\ (forall h0 t, holds s' h0 t <-> (h0 = h /\ t = mg_next s) \/ holds s h0 t) /\
  (forall t e, reports s' t e <-> (t = mg_next s /\ e = eps) \/ reports s t e).
Proof.
  intros [I0 I1 I2 I3 I4 I5] Hno s'.
  assert (Hfresh : forall e, ~ reports s (mg_next s) e).
  { intros e He. destruct (proj2 (I4 _) (ex_intro _ e He)) as (h1 & H1). apply I5 in H1. lia. }
  assert (S1 : forall h0 t, holds s' h0 t <-> (h0 = h /\ t = mg_next s) \/ holds s h0 t).
  { intros h0 t. unfold holds at 1. cbn. rewrite in_tinsert by exact I1. split; [intuition|]. intros [H|H]; auto. right. split; auto. intros ->. exact (Hno t H). }
  assert (S2 : forall t e, reports s' t e <-> (t = mg_next s /\ e = eps) \/ reports s t e).
  { intros t e. unfold reports at 1. cbn. rewrite in_tinsert by exact I2. split; [intuition|]. intros [H|H]; auto. right. split; auto. intros ->. exact (Hfresh e H). }
  split; [|split; auto]. constructor; auto.
  - cbn. apply ordered_insert; auto using nat_order.
  - cbn. apply ordered_insert; auto using nat_order.
  - intros h1 h2 t X1 X2. apply S1 in X1, X2. destruct X1 as [[-> ->]|X1], X2 as [[-> X2]|X2]; auto.
    + apply I5 in X2. lia.
    + subst t. apply I5 in X1. lia.
    + eauto.
  - intros t. split.
    + intros (h0 & X). apply S1 in X. destruct X as [[-> ->]|X]; [exists eps; apply S2; auto|].
      destruct (proj1 (I4 t) (ex_intro _ h0 X)) as (e & Y). exists e. apply S2. auto.
    + intros (e & X). apply S2 in X. destruct X as [[-> ->]|X]; [exists h; apply S1; auto|].
      destruct (proj2 (I4 t) (ex_intro _ e X)) as (h0 & Y). exists h0. apply S1. auto.
  - intros h0 t X. apply S1 in X. cbn. destruct X as [[-> ->]|X]; [lia|]. apply I5 in X. lia.
Qed.

Lemma fs_has (fs : list (bytes * nat)) n : ordered str_ltb fs -> mfind str_ltb n fs <> None <-> exists f, In (n, f) fs.
Proof.
  intros HO. split.
  - intros H. destruct (mfind str_ltb n fs) as [f|] eqn:E; [|congruence]. exists f. now apply (find_in _ str_order).
  - intros (f & H). rewrite (in_find _ str_order n f fs HO H). discriminate.
Qed.

Lemma connect_done h a s s' : MInv s -> m_connect h a s = MDone s' -> MInv s' /\ connected_to h a s s'.
Proof.
  intros HI E. unfold m_connect in E. destruct (tfind h (mg_transports s)) as [t|] eqn:Ef.
  - injection E as <-. split; auto. apply CT_no; auto. left. exists t. apply (tfind_some _ _ _ (mi_ot _ HI)). exact Ef.
  - assert (Hno : forall t, ~ holds s h t) by (apply (tfind_none _ _ (mi_ot _ HI)); exact Ef).
    destruct a as [|c intro mk]; [discriminate|]. destruct c; cbn [negb] in E; [|injection E as <-; split; auto; apply CT_no; eauto].
    destruct intro as [names| |]; try discriminate.
    + destruct (make_all (mg_factories s) mk 0 names []) as [eps thrown] eqn:Em. destruct thrown; [discriminate|]. injection E as <-.
      destruct (add_transport_inv h eps s HI Hno) as (X1 & X2 & X3). split; [exact X1|].
      apply (CT_yes _ _ _ _ (Answers names) mk eps); auto. split; [|split].
      * change eps with (fst (eps, false)). rewrite <- Em. apply make_all_ordered. constructor.
      * intros n e Hin. change eps with (fst (eps, false)) in Hin. rewrite <- Em in Hin. apply make_all_sound in Hin.
        destruct Hin as [[]|(j & Y1 & Y2 & Y3)]. exists j. split; auto. split; auto. apply fs_has; auto. apply HI.
      * intros i n e Y1 Y2 Y3. assert (Hin : In n (map fst eps)).
        { change eps with (fst (eps, false)). rewrite <- Em. eapply make_all_complete; eauto; [now rewrite Em|constructor|]. apply fs_has; auto. apply HI. }
        apply in_map_iff in Hin. destruct Hin as ((n' & e') & X & Hin). cbn in X. subst n'. eauto.
    + injection E as <-. destruct (add_transport_inv h [] s HI Hno) as (X1 & X2 & X3). split; [exact X1|].
      apply (CT_yes _ _ _ _ NoAnswer mk []); auto. split; [constructor|reflexivity].
Qed.

Lemma connect_thrown_inv h a s s' : MInv s -> m_connect h a s = MThrown s' -> MInv s'.
Proof.
  intros HI E. unfold m_connect in E. destruct (tfind h (mg_transports s)) as [t|] eqn:Ef; [discriminate|].
  assert (Hno : forall t, ~ holds s h t) by (apply (tfind_none _ _ (mi_ot _ HI)); exact Ef).
  destruct a as [|c intro mk]; [discriminate|]. destruct c; cbn [negb] in E; [|discriminate]. destruct intro as [names| |]; try discriminate.
  - destruct (make_all (mg_factories s) mk 0 names []) as [eps thrown]. destruct thrown; [|discriminate]. injection E as <-. apply (add_transport_inv h eps s HI Hno).
  - injection E as <-. apply (add_transport_inv h [] s HI Hno).
Qed.

(** What a successful round of connecting amounts to. *)
Record rounded (ds : list (nat * attempt)) (s s' : manager) : Prop := {
  rd_inv : MInv s';
  rd_fac : mg_factories s' = mg_factories s;
  rd_next : mg_next s <= mg_next s';
  rd_old : forall h t, t < mg_next s -> holds s' h t <-> holds s h t;
  rd_olde : forall t e, t < mg_next s -> reports s' t e <-> reports s t e;
  rd_new : forall h t, mg_next s <= t -> holds s' h t -> exists intro mk eps, In (h, ATransport true intro mk) ds /\ reports s' t eps /\
              endpoints_of (mg_factories s) intro mk eps;
  rd_all : forall h a, In (h, a) ds -> accepts a -> exists t, holds s' h t;
  rd_held : forall h t, holds s h t -> holds s' h t;
}.

Lemma connect_all_done ds : forall s s', MInv s -> connect_all ds s = MDone s' -> rounded ds s s'.
Proof.
  induction ds as [|[h a] ds IH]; intros s s' HI E; cbn [connect_all] in E.
  - injection E as <-. constructor; auto; try tauto.
    + intros h t Hle Hh. apply (mi_next _ HI) in Hh. lia.
    + intros h a [].
  - destruct (m_connect h a s) as [s1|s1|] eqn:E1; try discriminate. destruct (connect_done h a s s1 HI E1) as [HI1 HC].
    destruct (IH _ _ HI1 E) as [R1 R2 R3 R4 R5 R6 R7 R8]. destruct HC as [-> Hwhy|intro mk eps -> Hno He Hf Hn Hh Hr].
    + constructor; auto.
      * intros h0 t Hle Hh. destruct (R6 h0 t Hle Hh) as (i & m & e & X1 & X2). exists i, m, e. split; auto. now right.
      * intros h0 a0 [X|X] Ha; [|eauto]. injection X as <- <-. destruct Hwhy as [(t & Ht)|(i & m & ->)]; [eauto|].
        destruct Ha as (i' & m' & Ha). discriminate.
    + constructor; auto.
      * congruence.
      * lia.
      * intros h0 t Hlt. rewrite R4 by lia. rewrite Hh. split; auto. intros [[_ ->]|X]; auto. lia.
      * intros t e Hlt. rewrite R5 by lia. rewrite Hr. split; auto. intros [[-> _]|X]; auto. lia.
      * intros h0 t Hle X. destruct (Nat.eq_dec t (mg_next s)) as [->|Hne].
        -- apply R4 in X; [|lia]. apply Hh in X. destruct X as [[-> _]|X]; [|apply (mi_next _ HI) in X; lia].
           exists intro, mk, eps. split; [now left|]. split; [apply R5; [lia|]; apply Hr; auto|exact He].
        -- destruct (R6 h0 t) as (i & m & e & X1 & X2 & X3); [lia|exact X|]. exists i, m, e. rewrite Hf in X3. split; [now right|auto].
      * intros h0 a0 [X|X] Ha; [|eauto]. injection X as <- <-. exists (mg_next s). apply R8. apply Hh. auto.
      * intros h0 t X. apply R8. apply Hh. auto.
Qed.

Lemma connect_all_inv ds : forall s s', MInv s -> connect_all ds s = MDone s' \/ connect_all ds s = MThrown s' -> MInv s'.
Proof.
  induction ds as [|[h a] ds IH]; intros s s' HI E; cbn [connect_all] in E.
  - destruct E as [E|E]; [injection E as <-; auto|discriminate].
  - destruct (m_connect h a s) as [s1|s1|] eqn:E1.
    + apply (IH s1); auto. eapply connect_done; eauto.
    + destruct E as [E|E]; [discriminate|]. injection E as <-. eapply connect_thrown_inv; eauto.
    + destruct E; discriminate.
Qed.

Lemma clean_self alive s : MInv s -> exists s1, clean alive (mg_transports s) s = MDone s1 /\ MInv s1 /\ mg_next s1 = mg_next s /\ mg_factories s1 = mg_factories s /\
    (forall h t, holds s1 h t <-> holds s h t /\ alive t = true) /\
    (forall t eps, reports s1 t eps <-> reports s t eps /\ alive t = true).
Proof.
  intros HI. destruct (clean_spec alive (mg_transports s) s HI) as (s1 & E & H1 & H2 & H3 & H4 & H5); auto.
  { apply (ordered_NoDup _ nat_order). apply HI. }
  exists s1. do 4 (split; [assumption|]). split; [intros h t; split|intros t eps; split].
  - intros H. apply H4 in H. destruct H as [Ha Hb]. auto.
  - intros [Ha Hb]. apply H4. auto.
  - intros H. apply H5 in H. destruct H as [Ha Hb]. split; auto. destruct (proj2 (mi_same _ HI t) (ex_intro _ eps Ha)) as (h & Hh). exact (Hb h Hh).
  - intros [Ha Hb]. apply H5. auto.
Qed.

Lemma manage_inv alive ds s s' : MInv s -> manage alive ds s = MDone s' \/ manage alive ds s = MThrown s' -> MInv s'.
Proof.
  intros HI E. unfold manage in E. destruct (clean_self alive s HI) as (s1 & E1 & HI1 & _). rewrite E1 in E. eapply connect_all_inv; eauto.
Qed.

Lemma manager0_inv n : MInv (manager0 n).
Proof.
  constructor; unfold holds, reports; cbn; try contradiction.
  - repeat constructor.
  - constructor.
  - constructor.
  - intros t. split; intros (x & []).
Qed.

Lemma mrun_inv os : forall s s', MInv s -> mrun os s = Some s' -> MInv s'.
Proof.
  induction os as [|o os IH]; intros s s' HI E; cbn in E; [now injection E as <-|].
  destruct (mstep o s) as [s1|s1|] eqn:E1; [| |discriminate]; (apply (IH s1); [|exact E]).
  - destruct o as [alive ds|n f|h a]; cbn in E1.
    + eapply manage_inv; eauto.
    + injection E1 as <-. destruct HI. constructor; auto. cbn. apply ordered_insert; auto using str_order.
    + eapply connect_done; eauto.
  - destruct o as [alive ds|n f|h a]; cbn in E1.
    + eapply manage_inv; eauto.
    + discriminate.
    + eapply connect_thrown_inv; eauto.
Qed.

Theorem reached_inv s : m_reached s -> MInv s.
Proof. intros (n & os & E). eapply mrun_inv; eauto. apply manager0_inv. Qed.

(** ** The properties *)
Theorem one_transport_per_destination s h t1 t2 : m_reached s -> holds s h t1 -> holds s h t2 -> t1 = t2.
Proof. intros HR H1 H2. apply reached_inv in HR. eapply in_key_unique; eauto. apply HR. Qed.

Theorem one_destination_per_transport s h1 h2 t : m_reached s -> holds s h1 t -> holds s h2 t -> h1 = h2.
Proof. intros HR. apply (mi_inj _ (reached_inv _ HR)). Qed.

Theorem held_iff_reported s t : m_reached s -> (exists h, holds s h t) <-> (exists eps, reports s t eps).
Proof. intros HR. apply (mi_same _ (reached_inv _ HR)). Qed.

Theorem reported_once s t e1 e2 : m_reached s -> reports s t e1 -> reports s t e2 -> e1 = e2.
Proof. intros HR H1 H2. apply reached_inv in HR. eapply in_key_unique; eauto. apply HR. Qed.

(** A complete cycle. *)
Theorem cycle s alive ds s' : m_reached s -> manage alive ds s = MDone s' ->
  (* what was held stays exactly if it is connected, with the endpoints it had *)
  (forall h t, t < mg_next s -> holds s' h t <-> holds s h t /\ alive t = true) /\
  (forall t eps, t < mg_next s -> reports s' t eps <-> reports s t eps /\ alive t = true) /\
  (* every discovered server that accepts is held *)
  (forall h a, In (h, a) ds -> accepts a -> exists t, holds s' h t) /\
  (* a new transport comes from a discovered server and has exactly the endpoints the server offers and a factory made *)
  (forall h t, mg_next s <= t -> holds s' h t -> exists intro mk eps, In (h, ATransport true intro mk) ds /\ reports s' t eps /\
     match intro with
     | Answers names =>
        (forall n e, In (n, e) eps -> exists i, nth_error names i = Some n /\ has_factory s n /\ mk i = Makes e) /\
        (forall i n e, nth_error names i = Some n -> has_factory s n -> mk i = Makes e -> exists e', In (n, e') eps) /\ NoDup (map fst eps)
     | NoAnswer => eps = []
     | Throws => False
     end).
Proof.
  intros HR E. apply reached_inv in HR. unfold manage in E. destruct (clean_self alive s HR) as (s1 & E1 & HI1 & N & F & HT & HE). rewrite E1 in E.
  destruct (connect_all_done _ _ _ HI1 E) as [R1 R2 R3 R4 R5 R6 R7 R8]. rewrite N, F in *.
  split; [intros h t Hlt; rewrite R4 by exact Hlt; apply HT|]. split; [intros t eps Hlt; rewrite R5 by exact Hlt; apply HE|]. split.
  - exact R7.
  - intros h t Hle Hh. destruct (R6 h t Hle Hh) as (i & m & e & X1 & X2 & X3 & X4). exists i, m, e. split; auto. split; auto.
    destruct i; auto. destruct X4. split; auto. split; auto. apply (ordered_NoDup _ str_order). exact X3.
Qed.

(** Transports in use are numbered below [mg_next], so the cases of [cycle] cover everything. *)
Theorem gentle_cycle s alive ds : m_reached s -> (forall h a, In (h, a) ds -> gentle a) -> exists s', manage alive ds s = MDone s'.
Proof.
  intros HR HG. apply reached_inv in HR. unfold manage. destruct (clean_self alive s HR) as (s1 & -> & _). clear HR. revert s1.
  induction ds as [|[h a] ds IH]; intros s1; cbn; eauto.
  assert (Ha : gentle a) by (apply (HG h); now left).
  assert (E : exists s2, m_connect h a s1 = MDone s2).
  { unfold m_connect. destruct (tfind h (mg_transports s1)); [eauto|]. destruct a as [|c i mk]; [destruct Ha|]. destruct c; cbn; [|eauto].
    destruct i as [names| |]; cbn in Ha; [|eauto|destruct Ha]. pose proof (make_all_gentle (mg_factories s1) mk names Ha 0 []) as X.
    destruct (make_all (mg_factories s1) mk 0 names []) as [eps []]; [discriminate|eauto]. }
  destruct E as (s2 & ->). apply IH. intros h0 a0 X. apply (HG h0). now right.
Qed.

(** ** What goes wrong *)
Theorem null_transport_ub s h : (forall t, ~ holds s h t) -> m_reached s -> m_connect h NullTransport s = MUB.
Proof. intros Hno HR. unfold m_connect. now rewrite (proj2 (tfind_none _ h (mi_ot _ (reached_inv _ HR))) Hno). Qed.

Theorem throwing_terminates s alive h mk ds cs : m_reached s -> (forall t, ~ holds s h t) ->
  poll ((alive, (h, ATransport true Throws mk) :: ds) :: cs) s = WTerminate.
Proof.
  intros HR Hno. apply reached_inv in HR. cbn [poll]. unfold manage. destruct (clean_self alive s HR) as (s1 & -> & HI1 & _ & _ & HT & _). cbn [connect_all].
  unfold m_connect. rewrite (proj2 (tfind_none _ h (mi_ot _ HI1))); [reflexivity|]. intros v Hv. apply HT in Hv. destruct Hv as [Hv _]. exact (Hno v Hv).
Qed.

Theorem null_poll_ub s alive h ds cs : m_reached s -> (forall t, ~ holds s h t) ->
  poll ((alive, (h, NullTransport) :: ds) :: cs) s = WUB.
Proof.
  intros HR Hno. apply reached_inv in HR. cbn [poll]. unfold manage. destruct (clean_self alive s HR) as (s1 & -> & HI1 & _ & _ & HT & _). cbn [connect_all].
  unfold m_connect. rewrite (proj2 (tfind_none _ h (mi_ot _ HI1))); [reflexivity|]. intros v Hv. apply HT in Hv. destruct Hv as [Hv _]. exact (Hno v Hv).
Qed.

(** The endpoints of a transport never change while it stays connected. *)
Definition keeps (t : nat) (o : mop) : Prop := match o with OManage alive _ => alive t = true | _ => True end.

Lemma connect_keeps h a s s' t eps : MInv s -> reports s t eps -> m_connect h a s = MDone s' \/ m_connect h a s = MThrown s' -> reports s' t eps.
Proof.
  intros HI Hr E. destruct (proj2 (mi_same _ HI t) (ex_intro _ eps Hr)) as (h0 & Hh). apply (mi_next _ HI) in Hh.
  unfold m_connect in E. destruct (tfind h (mg_transports s)); [destruct E as [E|E]; [injection E as <-; auto|discriminate]|].
  destruct a as [|c i mk]; [destruct E; discriminate|]. destruct c; cbn [negb] in E; [|destruct E as [E|E]; [injection E as <-; auto|discriminate]].
  assert (G : forall e, reports {| mg_factories := mg_factories s; mg_transports := tinsert h (mg_next s) (mg_transports s); mg_endpoints := tinsert (mg_next s) e (mg_endpoints s); mg_next := S (mg_next s) |} t eps).
  { intros e. unfold reports. cbn. apply in_tinsert; [apply HI|]. right. split; [lia|exact Hr]. }
  destruct i as [names| |].
  - destruct (make_all (mg_factories s) mk 0 names []) as [e []]; destruct E as [E|E]; try discriminate; injection E as <-; apply G.
  - destruct E as [E|E]; [injection E as <-; apply G|discriminate].
  - destruct E as [E|E]; [discriminate|injection E as <-; apply G].
Qed.
Lemma connect_all_keeps ds t eps : forall s s', MInv s -> reports s t eps -> connect_all ds s = MDone s' \/ connect_all ds s = MThrown s' -> reports s' t eps.
Proof.
  induction ds as [|[h a] ds IH]; intros s s' HI Hr E; cbn [connect_all] in E.
  - destruct E as [E|E]; [injection E as <-; auto|discriminate].
  - destruct (m_connect h a s) as [s1|s1|] eqn:E1.
    + apply (IH s1); auto; [eapply connect_done; eauto|eapply connect_keeps; eauto].
    + destruct E as [E|E]; [discriminate|]. injection E as <-. eapply connect_keeps; eauto.
    + destruct E; discriminate.
Qed.

Theorem endpoints_frozen os : forall s s' t eps, m_reached s -> reports s t eps -> Forall (keeps t) os -> mrun os s = Some s' -> reports s' t eps.
Proof.
  intros s s' t eps HR. apply reached_inv in HR. revert s HR s'. induction os as [|o os IH]; intros s HI s' Hr HF E; cbn in E; [now injection E as <-|].
  inversion HF as [|? ? Ho HF']; subst.
  assert (G : forall s1, mstep o s = MDone s1 \/ mstep o s = MThrown s1 -> MInv s1 /\ reports s1 t eps).
  { intros s1 E1. destruct o as [alive ds|n f|h a]; cbn in E1, Ho.
    - split; [eapply manage_inv; eauto|]. unfold manage in E1. destruct (clean_self alive s HI) as (s2 & E2 & HI2 & _ & _ & _ & HE). rewrite E2 in E1.
      eapply connect_all_keeps; eauto. apply HE. auto.
    - destruct E1 as [E1|E1]; [|discriminate]. injection E1 as <-. split; auto. destruct HI. constructor; auto. cbn. apply ordered_insert; auto using str_order.
    - split; [|eapply connect_keeps; eauto]. destruct E1 as [E1|E1]; [eapply connect_done; eauto|eapply connect_thrown_inv; eauto]. }
  destruct (mstep o s) as [s1|s1|] eqn:E1; [| |discriminate]; destruct (G s1) as [G1 G2]; auto; apply (IH s1); auto.
Qed.

(** A server that did not accept is tried again in the next cycle in which it is discovered; so is one whose transport broke. *)
Theorem tried_again s alive ds s' h a : m_reached s -> manage alive ds s = MDone s' -> In (h, a) ds -> accepts a -> exists t, holds s' h t.
Proof. intros HR E Hin Ha. destruct (cycle s alive ds s' HR E) as (_ & _ & H & _). eauto. Qed.

Theorem not_accepted_not_held s alive ds s' h : m_reached s -> manage alive ds s = MDone s' ->
  (forall a, In (h, a) ds -> ~ accepts a) -> (forall t, holds s h t -> alive t = false) -> forall t, ~ holds s' h t.
Proof.
  intros HR E Hn Hd t Ht. destruct (cycle s alive ds s' HR E) as (H1 & _ & _ & H2).
  destruct (Nat.lt_ge_cases t (mg_next s)) as [C|C].
  - apply H1 in Ht; [|exact C]. destruct Ht as [Ht Ha]. rewrite (Hd t Ht) in Ha. discriminate.
  - destruct (H2 h t C Ht) as (i & m & e & X & _). apply (Hn _ X). red. eauto.
Qed.

(** ** Polling *)
Lemma polling_inv bs : forall p, pl_on p = pl_joinable p -> exists p', poll_calls bs p = PDone p' /\ pl_on p' = pl_joinable p'.
Proof.
  induction bs as [|b bs IH]; intros [on jo] H; cbn in H; subst jo; cbn [poll_calls]; [eexists; split; reflexivity|].
  destruct b, on; apply IH; reflexivity.
Qed.

Lemma poll_calls_last bs : forall p q, pl_on p = pl_joinable p -> poll_calls bs p = PDone q -> pl_on q = last bs (pl_on p).
Proof.
  induction bs as [|b bs IH]; intros [on jo] q H E; cbn in H; subst jo; cbn [poll_calls] in E; [injection E as <-; reflexivity|].
  assert (X : exists p1, (if b then start_polling {| pl_on := on; pl_joinable := on |} else stop_polling {| pl_on := on; pl_joinable := on |}) = PDone p1 /\ pl_on p1 = b /\ pl_on p1 = pl_joinable p1).
  { destruct b, on; cbn; eexists; repeat split. }
  destruct X as (p1 & X & Y & Z). rewrite X in E. rewrite (IH _ _ Z E), Y. clear. destruct bs as [|b0 bs]; [reflexivity|].
  cbn [pl_on]. revert b0. induction bs as [|b1 bs IH]; intros b0; [reflexivity|]. change (last (b1 :: bs) b = last (b :: b1 :: bs) on).
  exact (IH b1).
Qed.

Theorem polling_safe bs : exists p, poll_calls bs polling0 = PDone p /\ pl_on p = last bs false /\ exists p', destroy_polling p = PDone p' /\ pl_joinable p' = false.
Proof.
  destruct (polling_inv bs polling0 eq_refl) as (p & E & H). exists p. split; [exact E|]. split.
  - exact (poll_calls_last bs polling0 p eq_refl E).
  - destruct p as [on jo]. cbn in H. subst jo. destruct on; eexists; split; reflexivity.
Qed.
