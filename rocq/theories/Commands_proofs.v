(** Proofs about [discover] and [trace_configure]. *)
From Coq Require Import String List Arith NArith ZArith Ascii Bool Permutation Sorting.Sorted Lia.
Import ListNotations.
From Verif Require Import OMap_model OMap_proofs UnixSystem_model UnixSystem_proofs Config_model Config_spec Config_proofs Commands_model Commands_spec.

Lemma has_in e l : has e l = true <-> In e l.
Proof.
  unfold has. rewrite existsb_exists. split.
  - intros (x & H & E). apply bytes_eqb_eq in E. now subst.
  - intros H. exists e. split; auto. apply bytes_eqb_refl.
Qed.
Lemma listed_in z a : listed z a = true <-> asks a z.
Proof.
  unfold listed, asks. rewrite existsb_exists. split.
  - intros (x & H & E). apply Z.eqb_eq in E. now subst.
  - intros H. exists z. split; auto. apply Z.eqb_refl.
Qed.
Lemma listed_not z a : listed z a = false <-> ~ asks a z.
Proof. rewrite <- listed_in. destruct (listed z a); intuition congruence. Qed.

(** ** The sort *)
Section Sort.
Context {D : Type} (eqb : D -> D -> bool).
Definition le_key (x y : Z * D) : Prop := (fst x <= fst y)%Z.

Lemma put_ok x : forall l, StronglySorted le_key l -> ~ In (fst x) (map fst l) ->
  exists r, put eqb x l = Some r /\ Permutation (x :: l) r /\ StronglySorted le_key r.
Proof.
  induction l as [|y l IH]; intros HS HN; cbn.
  - exists [x]. repeat split; auto. repeat constructor.
  - apply StronglySorted_inv in HS. destruct HS as (HS & HF). cbn in HN. destruct (Z.ltb_spec (fst x) (fst y)) as [H|H].
    + exists (x :: y :: l). repeat split; auto. constructor; [constructor; auto|]. constructor; [unfold le_key; lia|].
      eapply Forall_impl; [|exact HF]. unfold le_key. intros; lia.
    + destruct (Z.eqb_spec (fst x) (fst y)) as [E|E]; [exfalso; apply HN; auto|]. cbn [andb].
      destruct (IH HS (fun K => HN (or_intror K))) as (r & E1 & P & S1). rewrite E1. cbn [option_map]. exists (y :: r). repeat split.
      * rewrite perm_swap. now apply perm_skip.
      * constructor; auto. apply Forall_forall. intros z Hz. apply (Permutation_in _ (Permutation_sym P)) in Hz. destruct Hz as [<-|Hz]; [unfold le_key; lia|].
        rewrite Forall_forall in HF. now apply HF.
Qed.
Lemma sort_ok : forall l, NoDup (map fst l) -> exists r, py_sort eqb l = Some r /\ Permutation l r /\ StronglySorted le_key r.
Proof.
  induction l as [|x l IH]; intros HN; cbn.
  - exists []. repeat split; auto. constructor.
  - cbn in HN. inversion HN as [|? ? H1 H2]; subst. destruct (IH H2) as (r & E & P & HS). rewrite E.
    destruct (put_ok x r HS) as (r' & E' & P' & HS').
    { intros K. apply H1. eapply Permutation_in; [|exact K]. symmetry. now apply Permutation_map. }
    exists r'. repeat split; auto. now rewrite P.
Qed.
End Sort.

Lemma sorted_map {A B} (R : A -> A -> Prop) (R' : B -> B -> Prop) (f : A -> B) : (forall x y, R x y -> R' (f x) (f y)) ->
  forall l, StronglySorted R l -> StronglySorted R' (map f l).
Proof.
  intros H l. induction 1 as [|x l HS IH HF]; cbn; constructor; auto. apply Forall_map. eapply Forall_impl; [|exact HF]. auto.
Qed.
Lemma perm_forall2 {A B} (P : A -> B -> Prop) : forall m m', Permutation m m' -> forall l, Forall2 P l m -> exists l', Permutation l l' /\ Forall2 P l' m'.
Proof.
  induction 1 as [|x m m' HP IH|x y m|m1 m2 m3 H1 IH1 H2 IH2]; intros l HF.
  - exists l. split; auto.
  - inversion HF as [|a ? l0 ? Ha Hl]; subst. destruct (IH _ Hl) as (l' & P1 & F1). exists (a :: l'). split; auto.
  - inversion HF as [|a ? l0 ? Ha Hl]; subst. inversion Hl as [|b ? l1 ? Hb Hl1]; subst. exists (b :: a :: l1). split; [apply perm_swap|auto].
  - destruct (IH1 _ HF) as (l1 & P1 & F1). destruct (IH2 _ F1) as (l2 & P2 & F2). exists l2. split; auto. now transitivity l1.
Qed.

(** ** Discovery *)
Lemma offered_ok s : sv_first s = InTime -> serves introspect s -> offered s = Some (sv_endpoints s).
Proof. intros E H. unfold offered. rewrite E. apply has_in in H. now rewrite H. Qed.
Lemma manage_ok fs : forall l, Forall (fun s => sv_first s = InTime /\ serves introspect s) l ->
  manage fs l = Some (map (fun s => (s, filter (fun e => has e fs) (sv_endpoints s))) l).
Proof. induction 1 as [|s l (H1 & H2) HF IH]; cbn; auto. rewrite (offered_ok _ H1 H2), IH. reflexivity. Qed.
Lemma has_filter e fs l : has e fs = true -> has e (filter (fun e => has e fs) l) = has e l.
Proof.
  intros H. apply eq_true_iff_eq. rewrite !has_in, filter_In. intuition.
Qed.

Theorem discovered l : Forall prompt l -> Forall introduces l -> NoDup (map sv_pid l) ->
  exists r, discover l = Some r /\ StronglySorted (fun x y => (fst (fst (fst x)) <= fst (fst (fst y)))%Z) r /\
    exists l', Permutation l l' /\ Forall2 data_true l' r.
Proof.
  intros HP HI HN. unfold discover. rewrite manage_ok.
  2: { rewrite Forall_forall in *. intros s Hs. destruct (HP s Hs) as (H1 & _). destruct (HI s Hs) as (H2 & _). auto. }
  set (f := fun s => (sv_pid s, ((sv_pid s, sv_name s, sv_threads s), sv_endpoints s)) : Z * data).
  assert (EL : look_all (map (fun s => (s, filter (fun e => has e [introspect; process_info]) (sv_endpoints s))) l) = Some (map f l)).
  { clear HN. induction l as [|s l IH]; [reflexivity|]. inversion HP as [|? ? P1 P2]; subst. inversion HI as [|? ? I1 I2]; subst. cbn [map look_all]. rewrite (IH P2 I2).
    unfold look. rewrite !has_filter by reflexivity. destruct I1 as (I1 & I1'). apply has_in in I1, I1'. rewrite I1, I1'. cbn [andb].
    unfold ask_supported, ask_info. destruct P1 as (_ & P1 & P3 & _). rewrite P1, P3. reflexivity. }
  rewrite EL. destruct (sort_ok data_eqb (map f l)) as (r & E & P & HS).
  { rewrite map_map. exact HN. }
  rewrite E. cbn [option_map].
  destruct (perm_forall2 (fun s x => x = f s) _ _ P l) as (l' & P' & F'). { clear. induction l; cbn; auto. }
  exists (map snd r). split; auto. split.
  - assert (HS' : StronglySorted (fun x y => (fst (fst (fst (snd x))) <= fst (fst (fst (snd y))))%Z) r).
    { clear - HS F'. revert l' F'. induction HS as [|x r HS IH HF]; intros l' F'; constructor; inversion F' as [|s ? l0 ? Es Fl]; subst; eauto.
      rewrite Forall_forall in *. intros y Hy. specialize (HF y Hy). assert (exists s', y = f s') as (s' & ->).
      { clear - Fl Hy. induction Fl as [|s1 x1 l1 r1 E1 F1 IHF]; [contradiction|]. destruct Hy as [<-|Hy]; [exists s1; exact E1|exact (IHF Hy)]. } exact HF. }
    eapply sorted_map; [|exact HS']. auto.
  - exists l'. split; auto. clear - F'. induction F' as [|s x l r Ex HF IH]; cbn; constructor; auto. now subst.
Qed.

(** ** Entries with the same number *)
Section Clash.
Context {D : Type} (eqb : D -> D -> bool).
Hypothesis eqb_eq : forall a b, eqb a b = true <-> a = b.
Definition pair_clash (l : list (Z * D)) : Prop := exists i j x y, i < j /\ nth_error l i = Some x /\ nth_error l j = Some y /\ fst x = fst y /\ snd x <> snd y.

Lemma put_exact x : forall l, StronglySorted le_key l ->
  (put eqb x l = None <-> exists y, In y l /\ fst x = fst y /\ snd x <> snd y) /\
  (forall r, put eqb x l = Some r -> Permutation (x :: l) r /\ StronglySorted le_key r).
Proof.
  induction l as [|y l IH]; intros HS; cbn [put].
  - split; [split; [discriminate|intros (y & [] & _)]|]. intros r H. injection H as <-. split; auto. repeat constructor.
  - apply StronglySorted_inv in HS. destruct HS as (HS & HF). destruct (IH HS) as (IH1 & IH2). rewrite Forall_forall in HF.
    destruct (Z.ltb_spec (fst x) (fst y)) as [H|H].
    + split.
      * split; [discriminate|]. intros (z & [<-|Hz] & E & _); [lia|]. specialize (HF z Hz). unfold le_key in HF. lia.
      * intros r E. injection E as <-. split; auto. constructor; [constructor; auto; now apply Forall_forall|]. constructor; [unfold le_key; lia|].
        apply Forall_forall. intros z Hz. specialize (HF z Hz). unfold le_key in *. lia.
    + destruct (Z.eqb_spec (fst x) (fst y)) as [E|E]; cbn [andb].
      * destruct (eqb (snd x) (snd y)) eqn:EE; cbn [negb].
        -- apply eqb_eq in EE. split.
           ++ split.
              ** intros K. destruct (put eqb x l); [discriminate K|]. destruct (proj1 IH1 eq_refl) as (z & Hz & K1). exists z. split; [now right|auto].
              ** intros (z & [<-|Hz] & K1 & K2); [contradiction|]. rewrite (proj2 IH1); auto. eauto.
           ++ intros r K. destruct (put eqb x l) as [r0|]; [|discriminate K]. injection K as <-. destruct (IH2 r0 eq_refl) as (P & S1). split.
              ** rewrite perm_swap. now apply perm_skip.
              ** constructor; auto. apply Forall_forall. intros z Hz. apply (Permutation_in _ (Permutation_sym P)) in Hz. destruct Hz as [<-|Hz]; [unfold le_key; lia|]. now apply HF.
        -- split; [|discriminate]. split; [|auto]. intros _. exists y. split; [now left|]. split; auto. intros K. apply eqb_eq in K. congruence.
      * split.
        -- split.
           ++ intros K. destruct (put eqb x l); [discriminate K|]. destruct (proj1 IH1 eq_refl) as (z & Hz & K1). exists z. split; [now right|auto].
           ++ intros (z & [<-|Hz] & K1 & K2); [contradiction|]. rewrite (proj2 IH1); auto. eauto.
        -- intros r K. destruct (put eqb x l) as [r0|]; [|discriminate K]. injection K as <-. destruct (IH2 r0 eq_refl) as (P & S1). split.
           ++ rewrite perm_swap. now apply perm_skip.
           ++ constructor; auto. apply Forall_forall. intros z Hz. apply (Permutation_in _ (Permutation_sym P)) in Hz. destruct Hz as [<-|Hz]; [unfold le_key; lia|]. now apply HF.
Qed.
Lemma sort_exact : forall l, (py_sort eqb l = None <-> pair_clash l) /\ (forall r, py_sort eqb l = Some r -> Permutation l r /\ StronglySorted le_key r).
Proof.
  induction l as [|x l (IH1 & IH2)]; cbn [py_sort].
  - split; [split; [discriminate|intros (i & j & a & b & _ & H & _); destruct i; discriminate H]|]. intros r H. injection H as <-. split; auto. constructor.
  - assert (HC : pair_clash (x :: l) <-> pair_clash l \/ exists y, In y l /\ fst x = fst y /\ snd x <> snd y).
    { split.
      - intros (i & j & a & b & Hij & Ha & Hb & K). destruct j as [|j]; [lia|]. destruct i as [|i].
        + right. cbn in Ha, Hb. injection Ha as <-. exists b. split; auto. eapply nth_error_In; eauto.
        + left. exists i, j, a, b. cbn in Ha, Hb. split; [lia|auto].
      - intros [(i & j & a & b & Hij & Ha & Hb & K)|(y & Hy & K)].
        + exists (S i), (S j), a, b. split; [lia|auto].
        + apply In_nth_error in Hy. destruct Hy as (j & Hj). exists 0, (S j), x, y. split; [lia|auto]. }
    destruct (py_sort eqb l) as [r0|].
    + destruct (IH2 r0 eq_refl) as (P & HS). destruct (put_exact x r0 HS) as (K1 & K2). split.
      * rewrite K1, HC. split.
        -- intros (y & Hy & K). right. exists y. split; auto. eapply Permutation_in; [symmetry; exact P|exact Hy].
        -- intros [K|(y & Hy & K)]; [apply IH1 in K; discriminate K|]. exists y. split; auto. eapply Permutation_in; [exact P|exact Hy].
      * intros r E. destruct (K2 r E) as (P' & S'). split; auto. now rewrite P.
    + split; [|discriminate]. split; auto. intros _. apply HC. left. now apply IH1.
Qed.
End Clash.

Lemma clash_pairs {D} (num : D -> Z) ds : pair_clash (map (fun d => (num d, d)) ds) <-> clash num ds.
Proof.
  split; intros (i & j & a & b & Hij & Ha & Hb & K).
  - rewrite nth_error_map in Ha, Hb. destruct (nth_error ds i) as [a'|] eqn:E1; [|discriminate Ha]. destruct (nth_error ds j) as [b'|] eqn:E2; [|discriminate Hb].
    injection Ha as <-. injection Hb as <-. exists i, j, a', b'. exact (conj Hij (conj E1 (conj E2 K))).
  - exists i, j, (num a, a), (num b, b). rewrite !nth_error_map, Ha, Hb. exact (conj Hij (conj eq_refl (conj eq_refl K))).
Qed.
Lemma thread_eqb_eq a b : thread_eqb a b = true <-> a = b.
Proof.
  unfold thread_eqb. rewrite andb_true_iff, Nat.eqb_eq, bytes_eqb_eq. destruct a, b. cbn. split; [intros (-> & ->); reflexivity|intros H; injection H; auto].
Qed.
Lemma list_eqb_eq {A} (eqb : A -> A -> bool) : (forall a b, eqb a b = true <-> a = b) -> forall a b, list_eqb eqb a b = true <-> a = b.
Proof.
  intros H. induction a as [|x a IH]; intros [|y b]; cbn; try (split; [discriminate|discriminate]); [split; auto|].
  rewrite andb_true_iff, H, IH. split; [intros (-> & ->); reflexivity|intros E; injection E; auto].
Qed.
Lemma info_eqb_eq a b : info_eqb a b = true <-> a = b.
Proof.
  destruct a as ((p & n) & t), b as ((p' & n') & t'). unfold info_eqb. cbn [fst snd]. rewrite !andb_true_iff, Z.eqb_eq, bytes_eqb_eq, (list_eqb_eq _ thread_eqb_eq).
  split; [intros ((-> & ->) & ->); reflexivity|intros H; injection H; auto].
Qed.
Lemma data_eqb_eq a b : data_eqb a b = true <-> a = b.
Proof.
  destruct a as (i & e), b as (i' & e'). unfold data_eqb. cbn [fst snd]. rewrite andb_true_iff, info_eqb_eq, (list_eqb_eq _ bytes_eqb_eq).
  split; [intros (-> & ->); reflexivity|intros H; injection H; auto].
Qed.

Theorem discovered_late l ds : Forall2 seen l ds ->
  (discover l = None <-> clash number ds) /\
  (forall r, discover l = Some r -> Permutation ds r /\ StronglySorted (fun x y => (number x <= number y)%Z) r).
Proof.
  intros HF. unfold discover. rewrite manage_ok.
  2: { clear - HF. induction HF as [|s d l ds H HF IH]; constructor; auto. destruct H as (H1 & (H2 & _) & _). auto. }
  set (f := fun d => (number d, d) : Z * data).
  assert (EL : look_all (map (fun s => (s, filter (fun e => has e [introspect; process_info]) (sv_endpoints s))) l) = Some (map f ds)).
  { induction HF as [|s d l ds H HF IH]; [reflexivity|]. cbn [map look_all]. rewrite IH.
    unfold look. rewrite !has_filter by reflexivity. destruct H as (_ & (I1 & I1') & H2 & H3). apply has_in in I1, I1'. rewrite I1, I1'. cbn [andb].
    unfold ask_supported, ask_info, f, number. destruct d as (i & e). cbn [fst snd] in *.
    destruct H2 as [(-> & ->)|(-> & ->)]; destruct H3 as [(-> & ->)|(junk & -> & ->)]; reflexivity. }
  rewrite EL. destruct (sort_exact data_eqb data_eqb_eq (map f ds)) as (K1 & K2). split.
  - assert (HN : pair_clash (map f ds) <-> clash number ds).
    { exact (clash_pairs number ds). }
    rewrite <- HN, <- K1. destruct (py_sort data_eqb (map f ds)); cbn; split; congruence.
  - intros r H. destruct (py_sort data_eqb (map f ds)) as [r0|]; [|discriminate H]. injection H as <-. destruct (K2 r0 eq_refl) as (P & HS).
    assert (ER : r0 = map f (map snd r0)).
    { assert (HR : forall x, In x r0 -> x = f (snd x)).
      { intros x Hx. apply (Permutation_in _ (Permutation_sym P)) in Hx. apply in_map_iff in Hx. destruct Hx as (d & <- & _). reflexivity. }
      clear - HR. induction r0 as [|x r0 IH]; [reflexivity|]. cbn [map]. rewrite <- (HR x (or_introl eq_refl)). f_equal. apply IH. intros y Hy. apply HR. now right. }
    split.
    + apply (Permutation_map snd) in P. rewrite map_map in P. rewrite map_id in P. exact P.
    + rewrite ER in HS. clear - HS. induction (map snd r0) as [|d r IH]; [constructor|]. cbn [map] in HS. apply StronglySorted_inv in HS. destruct HS as (HS & HF).
      constructor; [exact (IH HS)|]. apply Forall_forall. intros y Hy. rewrite Forall_forall in HF. exact (HF (f y) (in_map f _ _ Hy)).
Qed.

(** ** Configuration of one process *)
Lemma asked_none ths tid : ~ In tid (map fst ths) -> asked ths tid = None.
Proof.
  unfold asked. generalize (@None bool) as o. induction ths as [|[k b] ths IH]; intros o H; cbn; auto. cbn in H. destruct (Nat.eqb_spec k tid) as [E|E]; [exfalso; auto|]. apply IH. auto.
Qed.
Lemma asked_some b ths tid : Forall (fun e => snd e = b) ths -> In tid (map fst ths) -> asked ths tid = Some b.
Proof.
  unfold asked. intros HF HI. assert (G : forall o, (o = Some b \/ In tid (map fst ths)) -> fold_left (fun o kv => if fst kv =? tid then Some (snd kv) else o) ths o = Some b).
  { clear HI. induction HF as [|[k b'] ths E HF IH]; intros o HO; cbn [map fst fold_left] in *.
    - destruct HO as [HO|[]]. exact HO.
    - apply IH. cbn [snd fst] in *. destruct (Nat.eqb_spec k tid) as [K|K]; [left; congruence|]. destruct HO as [HO|[HO|HO]]; auto; congruence. }
  apply G. auto.
Qed.

Definition wanted (a : args) (s : server) : creq := change a (sv_pid s, sv_name s, sv_threads s).

Lemma wanted_done a s : reachable s -> carried_out a s (with_cfg s (fst (c_handle (wanted a s) (sv_cfg s)))).
Proof.
  intros (ls & HF & E). unfold wanted, change. cbn [fst snd].
  set (sp := if listed (sv_pid s) a then true else _). set (p := if listed (sv_pid s) a then ar_state a else _). set (ths := map _ _).
  pose proof (remote_change ls (sv_cfg s) sp p ths HF E) as H. cbn zeta in H. destruct (c_handle (CChange sp p ths) (sv_cfg s)) as [c r] eqn:EC. cbn [fst].
  destruct H as (H1 & _ & _ & H4 & H5 & H6 & _). assert (HP : g_process c = if sp then p else g_process (sv_cfg s)).
  { rewrite H4 in H1. exact H1. }
  split; [|split].
  - split; auto.
  - split; intros K; cbn [sv_cfg with_cfg].
    + apply listed_in in K. rewrite HP. unfold sp, p. now rewrite K.
    + apply listed_not in K. rewrite HP. unfold sp, p. rewrite K. now destruct (ar_unmatched a).
  - intros i t b Ht Hb. cbn [sv_cfg with_cfg]. specialize (H6 i t b Ht Hb). split.
    + intros K (N1 & C1). rewrite C1 in H6. rewrite (asked_some (ar_state a)) in H6; auto.
      * unfold ths. apply Forall_forall. intros e He. apply in_map_iff in He. destruct He as (x & <- & _). reflexivity.
      * unfold ths. rewrite map_map. cbn [fst]. apply in_map_iff in N1. destruct N1 as (x & Ex & Hx). apply in_map_iff. exists x. split; auto. apply filter_In. split; auto.
        rewrite Ex. now apply listed_in.
    + intros K. destruct (t_cleanup t) eqn:C1; auto. rewrite asked_none in H6; auto. intros N1. apply K. unfold ths in N1. rewrite map_map in N1. cbn [fst] in N1.
      apply in_map_iff in N1. destruct N1 as (x & Ex & Hx). apply filter_In in Hx. destruct Hx as (Hx & HL). rewrite Ex in HL. apply listed_in in HL. split; auto. split; auto.
      rewrite <- Ex. now apply in_map.
Qed.

Lemma ordered_keys {V W} : forall (m : list (nat * V)) (m' : list (nat * W)), map fst m = map fst m' -> ordered Nat.ltb m -> ordered Nat.ltb m'.
Proof.
  induction m as [|[k v] m IH]; intros [|[k' v'] m'] E HO; try discriminate E; [constructor|]. cbn in E. injection E as -> E. inversion HO as [|? ? HS HF]; subst. constructor; [eapply IH; eauto|].
  clear - E HF. revert m E HF. induction m' as [|[k2 v2] m' IH]; intros [|[k3 v3] m] E HF; try discriminate E; constructor; cbn in E; injection E as -> E; inversion HF as [|? ? X1 X2]; subst; auto. eapply IH; eauto.
Qed.

Lemma line_of a s : reachable s ->
  line_true (with_cfg s (fst (c_handle (wanted a s) (sv_cfg s)))) (to_line (sv_pid s, ((sv_pid s, sv_name s, sv_threads s), snd (c_handle (wanted a s) (sv_cfg s))))).
Proof.
  intros (ls & HF & E). unfold wanted, change. cbn [fst snd].
  set (sp := if listed (sv_pid s) a then true else _). set (p := if listed (sv_pid s) a then ar_state a else _). set (ths := map _ _).
  pose proof (remote_change ls (sv_cfg s) sp p ths HF E) as H. cbn zeta in H. destruct (c_handle (CChange sp p ths) (sv_cfg s)) as [c r] eqn:EC. cbn [fst snd].
  destruct H as (_ & _ & _ & H4 & _ & _ & (ls' & HF' & E')). pose proof (remote_query ls' c HF' E') as Q.
  destruct (reach _ _ HF' E') as (ac & _ & R). pose proof (reply_keys CQuery c) as RK. rewrite <- H4 in RK.
  assert (HO : ordered Nat.ltb (snd r)) by (eapply ordered_keys; [symmetry; exact RK|]; exact (r_ordered _ _ R)).
  destruct (c_handle CQuery c) as [c' r'] eqn:EQ. cbn [snd] in H4. subst r'. destruct Q as (-> & Q1 & Q2 & Q3 & Q4).
  unfold line_true, to_line. cbn [ln_pid ln_name ln_on ln_threads fst snd sv_pid sv_name sv_threads sv_cfg with_cfg]. split; [reflexivity|]. split; [reflexivity|]. split; [exact Q1|]. split.
  - rewrite map_map. cbn [fst]. rewrite <- (map_id (sv_threads s)) at 2. apply map_ext. now intros [? ?].
  - intros tid nm o Hin. apply in_map_iff in Hin. destruct Hin as ((k & nm') & Ek & Hk). cbn [fst snd] in Ek. assert (k = tid) by congruence. subst k. assert (Eo : o = mfind Nat.ltb tid (snd r)) by congruence. clear Ek.
    split.
    + rewrite Eo. rewrite (find_keys _ nat_order _ _ HO). apply Q3.
    + intros b i t Eb Ht Lt Et. rewrite Eo in Eb. apply (find_in _ nat_order) in Eb. apply (Q4 i t b Ht Lt). now rewrite Et.
Qed.

(** ** All processes in time *)
Definition after (a : args) (s : server) : server := if configurable s then with_cfg s (fst (c_handle (wanted a s) (sv_cfg s))) else s.
Definition entry (a : args) (s : server) : Z * state := (sv_pid s, ((sv_pid s, sv_name s, sv_threads s), snd (c_handle (wanted a s) (sv_cfg s)))).

Lemma configure_ok a fs : has process_info fs = true -> has trace_configurator fs = true -> forall l, Forall prompt l -> Forall introduces l ->
  configure a (map (fun s => (s, filter (fun e => has e fs) (sv_endpoints s))) l) = (map (after a) l, Some (map (entry a) (filter configurable l), 0)).
Proof.
  intros F1 F2. induction l as [|s l IH]; intros HP HI; [reflexivity|]. inversion HP as [|? ? P1 P2]; subst. inversion HI as [|? ? I1 I2]; subst. cbn [map configure filter]. specialize (IH P2 I2).
  unfold configure1, after. rewrite !has_filter by assumption. change (has trace_configurator (sv_endpoints s)) with (configurable s). destruct I1 as (_ & I1). apply has_in in I1. rewrite I1.
  destruct P1 as (_ & _ & P3 & P4). destruct (configurable s) eqn:C.
  - unfold ask_info. rewrite P3, P4. fold (wanted a s). destruct (c_handle (wanted a s) (sv_cfg s)) as [c r] eqn:EC. rewrite IH. cbn [fst snd map].
    unfold entry at 2. rewrite EC. reflexivity.
  - now rewrite IH.
Qed.

Theorem configured a l : Forall prompt l -> Forall introduces l -> Forall reachable l -> NoDup (map sv_pid l) ->
  exists l' r, trace_configure a l = (l', Some (0, r)) /\
    Forall2 (fun s s' => (serves trace_configurator s -> carried_out a s s') /\ (~ serves trace_configurator s -> s' = s)) l l' /\
    StronglySorted (fun x y => (ln_pid x <= ln_pid y)%Z) r /\
    exists p, Permutation (filter configurable l') p /\ Forall2 line_true p r.
Proof.
  intros HP HI HR HN. unfold trace_configure. rewrite manage_ok.
  2: { rewrite Forall_forall in *. intros s Hs. destruct (HP s Hs) as (H1 & _). destruct (HI s Hs) as (H2 & _). auto. }
  rewrite configure_ok by (try reflexivity; auto).
  destruct (sort_ok state_eqb (map (entry a) (filter configurable l))) as (r & E & P & HS).
  { rewrite map_map. cbn [fst entry]. change (fun x => sv_pid x) with sv_pid. clear - HN. induction l as [|s l IH]; cbn; [constructor|]. cbn in HN. inversion HN as [|? ? H1 H2]; subst. destruct (configurable s); cbn; auto.
    constructor; auto. intros K. apply H1. apply in_map_iff in K. destruct K as (x & <- & Hx). apply filter_In in Hx. apply in_map. tauto. }
  rewrite E. cbn [option_map]. exists (map (after a) l), (map to_line r). split; [reflexivity|]. split; [|split].
  - clear - HR. induction HR as [|s l H HR IH]; cbn; constructor; auto. unfold after. split; intros K.
    + apply has_in in K. change (configurable s = true) in K. rewrite K. now apply wanted_done.
    + destruct (configurable s) eqn:C; auto. apply has_in in C. contradiction.
  - eapply sorted_map; [|exact HS]. intros (? & ? & ?) (? & ? & ?). auto.
  - assert (F0 : Forall2 (fun s' e => line_true s' (to_line e)) (filter configurable (map (after a) l)) (map (entry a) (filter configurable l))).
    { clear - HR. induction HR as [|s l H HR IH]; cbn; [constructor|]. assert (EC : configurable (after a s) = configurable s) by (unfold after; destruct (configurable s) eqn:C; [exact C|exact C]).
      rewrite EC. destruct (configurable s) eqn:C; cbn; auto. constructor; auto. unfold after. rewrite C. now apply line_of. }
    destruct (perm_forall2 _ _ _ P _ F0) as (p & P' & F'). exists p. split; auto. clear - F'. induction F'; cbn; constructor; auto.
Qed.

(** ** Whatever goes wrong *)
Lemma with_same s : with_cfg s (sv_cfg s) = s.
Proof. now destruct s. Qed.

Lemma manage_fst fs : forall l ses, manage fs l = Some ses -> map fst ses = l.
Proof.
  induction l as [|s l IH]; intros ses E; cbn in E; [injection E as <-; reflexivity|]. destruct (offered s); [|discriminate E]. destruct (manage fs l) as [r|]; [|discriminate E].
  injection E as <-. cbn. f_equal. now apply IH.
Qed.

Definition untouched_or_done (a : args) (s s' : server) : Prop := s' = s \/ carried_out a s s'.

Lemma configure1_safe a se : reachable (fst se) -> ar_unmatched a = None -> (forall junk, sv_tell (fst se) = TooLate junk -> ~ asks a junk) ->
  untouched_or_done a (fst se) (fst (configure1 a se)).
Proof.
  destruct se as [s es]. cbn [fst]. intros HR HU HJ. unfold configure1. destruct (has trace_configurator es); [|left; reflexivity]. destruct (has process_info es); [|left; reflexivity].
  assert (G : forall i c r, ask_info s = Some i -> c_handle (change a i) (sv_cfg s) = (c, r) -> untouched_or_done a s (with_cfg s c)).
  { intros i c r EI EC. unfold ask_info in EI. destruct (sv_tell s) as [|junk|] eqn:ET; [| |discriminate EI]; injection EI as <-.
    - right. pose proof (wanted_done a s HR) as H. unfold wanted in H. rewrite EC in H. exact H.
    - left. specialize (HJ junk eq_refl). apply listed_not in HJ. unfold change in EC. cbn [fst snd] in EC. rewrite HJ, HU in EC. cbn [filter map] in EC. unfold c_handle in EC. cbn [fold_left] in EC.
      assert (c = sv_cfg s) by congruence. subst c. apply with_same. }
  destruct (ask_info s) as [i|] eqn:EI; [|left; reflexivity]. destruct (c_handle (change a i) (sv_cfg s)) as [c r] eqn:EC. specialize (G i c r eq_refl EC).
  destruct (sv_obey s) as [|[|]|[|]]; cbn [fst]; auto; left; reflexivity.
Qed.

Lemma refl_all a l : Forall2 (untouched_or_done a) l l.
Proof. induction l; constructor; auto. now left. Qed.

Theorem never_wrong a l : Forall reachable l -> ar_unmatched a = None -> (forall s junk, In s l -> sv_tell s = TooLate junk -> ~ asks a junk) ->
  Forall2 (fun s s' => s' = s \/ carried_out a s s') l (fst (trace_configure a l)).
Proof.
  intros HR HU HJ. unfold trace_configure. destruct (manage _ l) as [ses|] eqn:EM; [|apply refl_all]. apply manage_fst in EM.
  assert (G : Forall2 (untouched_or_done a) l (fst (configure a ses))).
  { clear - HR HU HJ EM. revert l HR HJ EM. induction ses as [|se ses IH]; intros l HR HJ EM; cbn in EM; subst l; [constructor|].
    inversion HR as [|? ? R1 R2]; subst. cbn [configure].
    pose proof (configure1_safe a se R1 HU (fun junk => HJ _ junk (or_introl eq_refl))) as H1.
    destruct (configure1 a se) as [s' res]. cbn [fst] in H1.
    assert (H2 : Forall2 (untouched_or_done a) (map fst ses) (fst (configure a ses))) by (apply IH; auto; intros s junk K; apply HJ; now right).
    destruct res; try (constructor; [exact H1|apply refl_all]); destruct (configure a ses) as [ss o]; cbn [fst] in H2 |- *; constructor; auto. }
  destruct (configure a ses) as [ss [[es n]|]]; exact G.
Qed.

(** ** The report when processes are late *)
Lemma state_eqb_eq a b : state_eqb a b = true <-> a = b.
Proof.
  destruct a as (i & (p & m)), b as (i' & (p' & m')). unfold state_eqb. cbn [fst snd]. rewrite !andb_true_iff, info_eqb_eq, Bool.eqb_true_iff, (list_eqb_eq (fun x y : nat * bool => Nat.eqb (fst x) (fst y) && Bool.eqb (snd x) (snd y))).
  - split; [intros ((-> & ->) & ->); reflexivity|intros H; injection H; auto].
  - intros (t & u) (t' & u'). cbn [fst snd]. rewrite andb_true_iff, Nat.eqb_eq, Bool.eqb_true_iff. split; [intros (-> & ->); reflexivity|intros H; injection H; auto].
Qed.
Lemma configure_late a : forall l os, Forall2 (learns a) l os ->
  snd (configure a (map (fun s => (s, filter (fun e => has e [introspect; process_info; trace_configurator]) (sv_endpoints s))) l)) =
    Some (map (fun e => (fst (fst (fst e)), e) : Z * state) (entries os), counted os).
Proof.
  induction 1 as [|s o l os H HF IH]; [reflexivity|]. cbn [map configure]. destruct H as (_ & HI & H).
  set (es := filter (fun e => has e [introspect; process_info; trace_configurator]) (sv_endpoints s)).
  set (rest := configure a _) in *. destruct rest as (ss & ro). cbn [snd] in IH. subst ro.
  assert (E1 : has trace_configurator es = has trace_configurator (sv_endpoints s)) by now apply has_filter.
  assert (E2 : has process_info es = has process_info (sv_endpoints s)) by now apply has_filter.
  unfold configure1. rewrite E1, E2. destruct H as [(H & ->)|(H1 & H2 & i & Hi & H)].
  - destruct (has trace_configurator (sv_endpoints s)) eqn:E; [apply has_in in E; contradiction|]. reflexivity.
  - apply has_in in H1, H2. rewrite H1, H2. replace (ask_info s) with (Some i).
    2: { unfold ask_info. destruct Hi as [(-> & ->)|(junk & -> & ->)]; reflexivity. }
    destruct (c_handle (change a i) (sv_cfg s)) as (c & r). cbn [snd] in H. destruct H as [((done & ->) & ->)|(-> & ->)]; reflexivity.
Qed.
Theorem configured_late a l os : Forall2 (learns a) l os ->
  (snd (trace_configure a l) = None <-> clash (fun e : state => fst (fst (fst e))) (entries os)) /\
  (forall n r, snd (trace_configure a l) = Some (n, r) ->
     n = counted os /\ StronglySorted (fun x y => (ln_pid x <= ln_pid y)%Z) r /\ exists p, Permutation (entries os) p /\ Forall2 line_for p r).
Proof.
  intros HF. unfold trace_configure. rewrite manage_ok.
  2: { clear - HF. induction HF as [|s d l ds H HF IH]; constructor; auto. destruct H as (H1 & H2 & _). auto. }
  pose proof (configure_late a l os HF) as HC.
  set (rest := configure a _) in *. destruct rest as (ss & ro). cbn [snd] in HC. subst ro.
  set (f := fun e => (fst (fst (fst e)), e) : Z * state). cbn [snd].
  destruct (sort_exact state_eqb state_eqb_eq (map f (entries os))) as (K1 & K2). split.
  - assert (HN : pair_clash (map f (entries os)) <-> clash (fun e : state => fst (fst (fst e))) (entries os)).
    { exact (clash_pairs (fun e : state => fst (fst (fst e))) (entries os)). }
    rewrite <- HN, <- K1. destruct (py_sort state_eqb (map f (entries os))); cbn; split; congruence.
  - intros n r H. destruct (py_sort state_eqb (map f (entries os))) as [r0|]; [|discriminate H]. cbn [option_map] in H. injection H as <- <-. split; auto.
    destruct (K2 r0 eq_refl) as (P & HS).
    assert (HR : forall x, In x r0 -> x = f (snd x)).
    { intros x Hx. apply (Permutation_in _ (Permutation_sym P)) in Hx. apply in_map_iff in Hx. destruct Hx as (d & <- & _). reflexivity. }
    split.
    + clear - HS HR. induction HS as [|x r HS IH HF]; cbn [map]; constructor.
      * apply IH. intros y Hy. apply HR. now right.
      * apply Forall_map. apply Forall_forall. intros y Hy. rewrite Forall_forall in HF. specialize (HF y Hy). unfold le_key in HF.
        destruct x as (p & (i & rx)), y as (q & (j & ry)). exact HF.
    + exists (map snd r0). split.
      * apply (Permutation_map snd) in P. rewrite map_map, map_id in P. exact P.
      * clear - HR. induction r0 as [|x r0 IH]; cbn [map]; constructor.
        -- rewrite (HR x (or_introl eq_refl)). destruct (snd x) as (i & r). unfold line_for, to_line, f. cbn. repeat split.
        -- apply IH. intros y Hy. apply HR. now right.
Qed.
