From Coq Require Import String List Arith NArith ZArith Ascii Bool Lia Reals Lra Floats.SpecFloat Sorting.Sorted Sorting.Permutation.
Import ListNotations.
From Flocq Require Import Core.Core IEEE754.BinarySingleNaN.
From Verif Require Import UnixSystem_model OMap_model TraceEvent_model Names_model Native_model Native_spec Native_proofs FloatTime_proofs.
From Verif Require Import Json_model Json_spec Json_proofs Str_model Ctf_model Ctf_spec Ctf_proofs Lttng_model Lttng_spec Lttng_proofs LttngTime_proofs Config_model Tracers_model Tracers_spec.
Local Open Scope nat_scope.
Local Open Scope list_scope.
Local Notation length := List.length.

(** ** Orders *)
Definition before (a b : happening) : Prop := (h_time a <= h_time b)%N.
Lemma apart_perm hs hs' : Permutation hs hs' -> apart hs -> apart hs'.
Proof.
  unfold apart. intros P. induction P as [|x l l' P IH|x y l|l l' l'' P1 IH1 P2 IH2]; intro A; auto.
  - inversion A as [|? ? F A']; subst. constructor; auto. rewrite Forall_forall in *. intros z Hz. apply F. eapply Permutation_in; [symmetry; exact P|exact Hz].
  - inversion A as [|? ? F A']; subst. inversion A' as [|? ? F' A'']; subst. inversion F as [|? ? Hyx F2]; subst.
    constructor; [constructor; [tauto|exact F']|]. constructor; auto.
Qed.
Lemma apart_in hs a b l : hs = a :: l -> apart hs -> In b l -> (h_time a + 1000 <= h_time b \/ h_time b + 1000 <= h_time a)%N.
Proof. intros -> A H. inversion A as [|? ? F _]; subst. rewrite Forall_forall in F. now apply F. Qed.
Lemma sorted_unique : forall a b, Permutation a b -> apart a -> StronglySorted before a -> StronglySorted before b -> a = b.
Proof.
  induction a as [|x a IH]; intros b P A Sa Sb; [apply Permutation_nil in P; now subst|].
  destruct b as [|y b]; [apply Permutation_sym, Permutation_nil in P; discriminate|].
  assert (x = y).
  { assert (Hy : In y (x :: a)) by (eapply Permutation_in; [symmetry; exact P|now left]). assert (Hx : In x (y :: b)) by (eapply Permutation_in; [exact P|now left]).
    destruct Hy as [->|Hy]; [reflexivity|]. destruct Hx as [->|Hx]; [reflexivity|]. exfalso.
    inversion Sa as [|? ? _ Fa]; subst. inversion Sb as [|? ? _ Fb]; subst. rewrite Forall_forall in *. specialize (Fa _ Hy). specialize (Fb _ Hx).
    destruct (apart_in _ x y a eq_refl A Hy); unfold before in *; lia. }
  subst y. f_equal. apply IH; [eapply Permutation_cons_inv; eauto| | |].
  - now inversion A. - now inversion Sa. - now inversion Sb.
Qed.
Lemma perm_Forall2 {A B} (R : A -> B -> Prop) l l' : Permutation l l' -> forall h, Forall2 R h l -> exists h', Permutation h h' /\ Forall2 R h' l'.
Proof.
  induction 1 as [|x l l' P IH|x y l|l l' l'' P1 IH1 P2 IH2]; intros h F.
  - inversion F; subst. exists []. split; constructor.
  - inversion F as [|a ? h0 ? Ra F0]; subst. destruct (IH _ F0) as (h' & P' & F'). exists (a :: h'). split; constructor; auto.
  - inversion F as [|a ? h0 ? Ra F0]; subst. inversion F0 as [|b ? h1 ? Rb F1]; subst. exists (b :: a :: h1). split; [constructor|]. repeat constructor; auto.
  - destruct (IH1 _ F) as (h1 & P' & F'). destruct (IH2 _ F') as (h2 & P'' & F''). exists h2. split; [etransitivity; eauto|auto].
Qed.

Lemma nat_time h : te_time (r_ev (natively h)) = h_time h.
Proof. destruct h as [p t n [id|id|[] id|id v]]; reflexivity. Qed.
Lemma real_range n : (n < 2 ^ 61)%N -> (0 <= IZR (Z.of_N n) / 1000000000 < bpow radix2 32)%R.
Proof.
  intro H. assert (0 <= IZR (Z.of_N n))%R by (apply IZR_le; lia). assert (IZR (Z.of_N n) < IZR (2 ^ 61))%R by (apply IZR_lt; lia).
  change (IZR (2 ^ 61)) with 2305843009213693952%R in *. change (bpow radix2 32) with 4294967296%R. split; lra.
Qed.
Lemma before_native a b : (h_time a < 2 ^ 61)%N -> (h_time b < 2 ^ 61)%N -> (h_time a + 1000 <= h_time b \/ h_time b + 1000 <= h_time a)%N ->
  shown_before (natively b) (natively a) = false -> before a b.
Proof.
  intros Ha Hb A H. unfold before. destruct A as [A|A]; [lia|]. exfalso. unfold shown_before in H. rewrite !nat_time in H. rewrite (ts_strict _ _ A Ha) in H. discriminate.
Qed.
Lemma native_before a b : (h_time b < 2 ^ 61)%N -> before a b -> shown_before (natively b) (natively a) = false.
Proof. intros Hb H. unfold shown_before. rewrite !nat_time. apply ts_monotone; [exact H|lia]. Qed.
Lemma lttng_before a b d e : (h_time a < 2 ^ 61)%N -> (h_time b < 2 ^ 61)%N -> by_lttng a d -> by_lttng b e -> before a b -> earlier e d = false.
Proof.
  intros Ha Hb Da Db H. unfold earlier. apply (proj1 (lts_order _ _ _ _ (bl_time _ _ Da) (bl_time _ _ Db) (real_range _ Ha) (real_range _ Hb))).
  assert (IZR (Z.of_N (h_time a)) <= IZR (Z.of_N (h_time b)))%R by (apply IZR_le; unfold before in H; lia). lra.
Qed.
Lemma before_lttng a b d e : (h_time a < 2 ^ 61)%N -> (h_time b < 2 ^ 61)%N -> by_lttng a d -> by_lttng b e -> (h_time a + 1000 <= h_time b \/ h_time b + 1000 <= h_time a)%N ->
  earlier e d = false -> before a b.
Proof.
  intros Ha Hb Da Db A H. unfold before. destruct A as [A|A]; [lia|]. exfalso. unfold earlier in H.
  rewrite (proj2 (lts_order _ _ _ _ (bl_time _ _ Db) (bl_time _ _ Da) (real_range _ Hb) (real_range _ Ha))) in H; [discriminate|].
  assert (IZR (Z.of_N (h_time b)) + 1000 <= IZR (Z.of_N (h_time a)))%R by (rewrite <- plus_IZR; apply IZR_le; lia). lra.
Qed.

Definition within (h : happening) : Prop := (h_time h < 2 ^ 61)%N.
Lemma sorted_native : forall hs, Forall within hs -> apart hs -> StronglySorted (fun a b => shown_before b a = false) (map natively hs) -> StronglySorted before hs.
Proof.
  induction hs as [|h hs IH]; intros W A S0; [constructor|]. inversion W as [|? ? W1 W2]; subst. inversion A as [|? ? A1 A2]; subst. cbn [map] in S0. inversion S0 as [|? ? S1 F]; subst.
  constructor; [now apply IH|]. rewrite Forall_forall in *. intros b Hb. apply before_native; [exact W1|exact (W2 b Hb)|exact (A1 b Hb)|]. apply F. now apply in_map.
Qed.
Lemma sorted_lttng : forall hs ds, Forall2 by_lttng hs ds -> Forall within hs -> apart hs -> StronglySorted (fun a b => earlier b a = false) ds -> StronglySorted before hs.
Proof.
  induction 1 as [|h d hs ds B F IH]; intros W A S0; [constructor|]. inversion W as [|? ? W1 W2]; subst. inversion A as [|? ? A1 A2]; subst. inversion S0 as [|? ? S1 G]; subst.
  constructor; [now apply IH|]. clear IH S0 S1 A A2 W. revert G. induction F as [|k e hs ds Bk F IH]; intro G; [constructor|].
  inversion W2; subst. inversion A1; subst. inversion G; subst. constructor; [|now apply IH]. eapply before_lttng; eauto.
Qed.

(** ** Entries *)
Lemma event_type p n : te_type (event_of p n) = match p with TpEntry _ => 1 | TpExit _ => 2 | TpMark LGlobal _ => 3 | TpMark LProcess _ => 4 | TpMark LThread _ => 5 | TpCount _ _ => 6 end%N.
Proof. destruct p as [id|id|[] id|id v]; reflexivity. Qed.
Lemma event_id p n : te_id (event_of p n) = point_id p.
Proof. destruct p as [id|id|[] id|id v]; reflexivity. Qed.
Lemma event_proper p n : proper (event_of p n).
Proof. unfold proper. rewrite event_type. destruct p as [id|id|[] id|id v]; (split; [lia|]); intro X; try discriminate X; cbn; discriminate. Qed.
Lemma phase_kind p n ph s : phase (te_type (event_of p n)) ph s -> (ph, s) = kind_phase (point_kind p).
Proof. rewrite event_type. destruct p as [id|id|[] id|id v]; cbn; inversion 1; reflexivity. Qed.

Lemma match_entries m h d e f : within h -> shows m (natively h) e -> by_lttng h d -> portrays m d f -> alike e f.
Proof.
  intros W [T1 P1 I1 H1 N1 A1] [B1 B2 B3 B4 B5] [T2 P2 I2 H2 N2 O2]. cbn [r_pid r_tid r_ev natively fst snd] in *.
  pose proof (phase_kind _ _ _ _ H1) as K1. rewrite B4 in H2. rewrite <- H2 in K1. injection K1 as K1 K2.
  assert (L : label_of m d = scope_name m (Z.of_N (h_pid h)) (point_id (h_point h))) by (unfold label_of; now rewrite B1, B3).
  constructor; try congruence.
  - rewrite N1, N2, L, B4, event_id, event_type. destruct (h_point h) as [id|id|[] id|id v]; reflexivity.
  - rewrite T1, T2. pose proof (ts_accurate (h_time h) W) as X. pose proof (lts_accurate _ _ B5 (real_range _ W)) as Y.
    replace (te_time (event_of (h_point h) (h_time h))) with (h_time h) by (symmetry; exact (nat_time h)).
    replace (IZR (Z.of_N (h_time h)) / 1000000000 * 1000000)%R with (IZR (Z.of_N (h_time h)) / 1000)%R in Y by lra.
    set (x := SF2R radix2 (ts_of (h_time h))) in *. set (y := SF2R radix2 (lts (d_time d))) in *. set (z := (IZR (Z.of_N (h_time h)) / 1000)%R) in *.
    replace (x - y)%R with ((x - z) - (y - z))%R by lra. eapply Rle_lt_trans; [apply Rabs_triang|]. rewrite Rabs_Ropp. lra.
  - rewrite event_type in A1. rewrite B4 in O2. destruct (h_point h) as [id|id|[] id|id v]; cbn [point_kind] in O2;
      try (split; intro Y; [exact O2|]; destruct (en_args e) as [w|]; [exfalso; assert (X : Some w <> None) by discriminate; apply A1 in X; discriminate X|reflexivity]).
    destruct O2 as (a & Ea & _). rewrite Ea. split; [intro X; exfalso; apply (proj2 A1); [reflexivity|exact X]|discriminate].
Qed.
Lemma match_own m h d e f : shows m (natively h) e -> own m (natively h) e -> by_lttng h d -> portrays m d f -> own_values m h e f.
Proof.
  intros S1 O1 [B1 B2 B3 B4 B5] [T2 P2 I2 H2 N2 O2] v Hv. rewrite B4, Hv in O2. destruct O2 as (b & Eb & Vb).
  unfold own in O1. cbn [r_pid r_tid r_ev natively fst snd] in O1. destruct (h_point h) as [id|id|[] id|id w] eqn:E; try discriminate. cbn in Hv. injection Hv as ->.
  destruct (O1 eq_refl v eq_refl) as (a & Ea & Va). exists a, b. split; [exact Ea|]. split; [exact Eb|]. cbn zeta. cbn [point_id].
  split; [exact Va|]. unfold label_of in Vb. rewrite B1, B3 in Vb. exact Vb.
Qed.

(** ** The values of counters *)
Lemma sets_gives m p name s h d : by_lttng h d -> sets m (Z.of_N p) name s (natively h) = gives_to m p name s d.
Proof.
  intros [B1 B2 B3 B4 B5]. unfold sets, gives_to, is_counter, counts, label_of. cbn [natively r_pid r_tid r_ev fst snd]. rewrite B1, B3, B4, event_id, event_type.
  destruct (N.eqb_spec (h_pid h) p) as [->|N].
  - rewrite Z.eqb_refl. destruct (h_point h) as [id|id|[] id|id v]; reflexivity.
  - destruct (Z.eqb_spec (Z.of_N (h_pid h)) (Z.of_N p)); [lia|]. reflexivity.
Qed.
Lemma latest_same {A B} (f : A -> option Z) (g : B -> option Z) l l' : Forall2 (fun a b => f a = g b) l l' -> Native_spec.latest f l = Native_spec.latest g l' /\ earliest f l = earliest g l'.
Proof. induction 1 as [|a b l l' E F (I1 & I2)]; [auto|]. cbn. rewrite E, I1, I2. auto. Qed.
Lemma value_same m p name s hs ds ks es : Forall2 by_lttng hs ds -> Forall2 by_lttng ks es ->
  value_at (sets m (Z.of_N p) name s) (map natively hs) (map natively ks) = value_at (gives_to m p name s) ds es.
Proof.
  assert (X : forall hs ds, Forall2 by_lttng hs ds -> Forall2 (fun a b => sets m (Z.of_N p) name s a = gives_to m p name s b) (map natively hs) ds).
  { induction 1; cbn; constructor; auto. now apply sets_gives. }
  intros F G. unfold value_at. destruct (latest_same _ _ _ _ (X _ _ F)) as (-> & _). destruct (latest_same _ _ _ _ (X _ _ G)) as (_ & ->). reflexivity.
Qed.

(** ** Recordings *)
Lemma goods cs hs : received cs = map natively hs -> Forall good_chunk cs.
Proof.
  revert hs. induction cs as [|c cs IH]; intros hs H; [constructor|]. unfold received in *. cbn [flat_map] in H.
  symmetry in H. apply map_eq_app in H as (h1 & h2 & -> & H1 & H2). constructor; [|exact (IH h2 (eq_sym H2))]. clear IH H2.
  unfold good_chunk. unfold events_of in H1. revert h1 H1. generalize (nc_pid c) as p. induction (nc_threads c) as [|[t evs] ts IH]; intros p h1 H; [constructor|]. cbn [flat_map fst snd] in H.
  apply map_eq_app in H as (h3 & h4 & -> & H1 & H2). constructor; [|exact (IH p h4 H2)]. clear IH H2. cbn [snd]. revert h3 H1.
  induction evs as [|ev evs IH]; intros h3 H; [constructor|]. destruct h3 as [|h h3]; [discriminate|]. cbn [map] in H. injection H as _ _ E H2. constructor; [rewrite <- E; apply event_proper|exact (IH h3 H2)].
Qed.
Lemma told_deeds es hs : Forall2 told es hs -> exists ds, Forall2 tells es ds /\ Forall2 by_lttng hs ds.
Proof. induction 1 as [|e h es hs (d & B & T) F (ds & F1 & F2)]; [exists []; split; constructor|]. exists (d :: ds). split; constructor; auto. Qed.
Lemma in_order {A B} (R : A -> B -> Prop) l l' i a b : Forall2 R l l' -> nth_error l i = Some a -> nth_error l' i = Some b -> R a b.
Proof. intro F. revert i. induction F as [|x y l l' H F IH]; intros [|i] E1 E2; try discriminate; cbn in *; [congruence|eauto]. Qed.
Lemma cut_at {A} (l : list A) i a : nth_error l i = Some a -> exists x y, l = x ++ a :: y /\ length x = i.
Proof. intro H. destruct (nth_error_split _ _ H) as (x & y & -> & L). eauto. Qed.
Lemma in_order_ex {A B} (R : A -> B -> Prop) l l' i a : Forall2 R l l' -> nth_error l i = Some a -> exists b, nth_error l' i = Some b /\ R a b.
Proof. intro F. revert i. induction F as [|x y l l' H F IH]; intros [|i] E1; try discriminate; cbn in *; [injection E1 as <-; eauto|eauto]. Qed.
Lemma F2_app {A B} (R : A -> B -> Prop) a1 a a2 l : Forall2 R (a1 ++ a :: a2) l -> exists b1 b b2, l = b1 ++ b :: b2 /\ length b1 = length a1 /\ Forall2 R a1 b1 /\ R a b /\ Forall2 R a2 b2.
Proof.
  intro F. apply Forall2_app_inv_l in F as (b1 & l2 & F1 & F2 & ->). inversion F2 as [|? b ? b2 Rb F3]; subst. exists b1, b, b2. repeat split; auto. symmetry. eapply Forall2_length; eauto.
Qed.
Lemma counter_kind m p name h d : by_lttng h d -> (counts m name d = true -> d_pid d = p) -> native_counter m p name h = counts m name d.
Proof.
  intros B O. destruct B as [B1 B2 B3 B4 B5]. unfold native_counter, is_counter, counts, label_of in *. cbn [natively r_pid r_tid r_ev fst snd]. rewrite B1, B3, B4, event_id, event_type in *.
  destruct (Z.eqb_spec (Z.of_N (h_pid h)) (Z.of_N p)) as [E|N].
  - apply N2Z.inj in E. rewrite <- E. destruct (h_point h) as [id|id|[] id|id v]; reflexivity.
  - destruct (h_point h) as [id|id|[] id|id v]; cbn [point_kind andb] in *; try reflexivity. destruct (str_eqb _ name); [|reflexivity]. exfalso. specialize (O eq_refl). subst. congruence.
Qed.
Lemma counts_own m name h d : by_lttng h d -> native_counter m (h_pid h) name h = counts m name d.
Proof. intro B. apply counter_kind; [exact B|]. intros _. exact (bl_pid _ _ B). Qed.
Lemma sole_deeds m p name hs ds : Forall2 by_lttng hs ds -> only_process m p name hs -> sole m p name ds.
Proof.
  unfold only_process, sole. induction 1 as [|h d hs ds B F IH]; intro O; [constructor|]. inversion O as [|? ? O1 O2]; subst. constructor; [|auto]. intro C.
  rewrite (bl_pid _ _ B). apply O1. now rewrite (counts_own m name h d B).
Qed.
Lemma native_filter m p name : forall hs, Forall within hs -> in_time (native_counter m p name) hs ->
  StronglySorted (fun a b => shown_before b a = false) (filter (is_counter m (Z.of_N p) name) (map natively hs)).
Proof.
  intros hs W S0. unfold in_time in S0.
  assert (E : filter (is_counter m (Z.of_N p) name) (map natively hs) = map natively (filter (native_counter m p name) hs)).
  { clear. induction hs as [|h hs IH]; [reflexivity|]. cbn [map filter]. unfold native_counter at 1. destruct (is_counter m (Z.of_N p) name (natively h)); cbn [map]; now rewrite IH. }
  rewrite E. clear E. assert (W' : Forall within (filter (native_counter m p name) hs)) by (rewrite Forall_forall in *; intros x Hx; apply filter_In in Hx as [Hx _]; auto).
  induction (filter (native_counter m p name) hs) as [|h l IH]; [constructor|]. inversion S0 as [|? ? S1 F]; subst. inversion W' as [|? ? W1 W2]; subst. cbn [map]. constructor; [auto|].
  rewrite Forall_forall in *. intros r Hr. apply in_map_iff in Hr as (b & <- & Hb). apply native_before; [exact (W2 b Hb)|exact (F b Hb)].
Qed.
Lemma lttng_filter m p name hs ds : Forall2 by_lttng hs ds -> Forall within hs -> only_process m p name hs -> in_time (native_counter m p name) hs ->
  StronglySorted (fun a b => earlier b a = false) (filter (counts m name) ds).
Proof.
  intros F W O S0. unfold in_time in S0.
  assert (G : Forall2 by_lttng (filter (native_counter m p name) hs) (filter (counts m name) ds)).
  { clear S0 W. revert O. unfold only_process. induction F as [|h d hs ds B F IH]; intro O; [constructor|]. inversion O as [|? ? O1 O2]; subst. cbn [filter].
    rewrite (counter_kind m p name h d B). 2:{ intro C. rewrite (bl_pid _ _ B). apply O1. now rewrite (counts_own m name h d B). }
    destruct (counts m name d); [constructor|]; auto. }
  assert (W' : Forall within (filter (native_counter m p name) hs)) by (rewrite Forall_forall in *; intros x Hx; apply filter_In in Hx as [Hx _]; auto).
  clear F O W. induction G as [|h d l l' B F IH]; [constructor|]. inversion S0 as [|? ? S1 S2]; subst. inversion W' as [|? ? W1 W2]; subst. constructor; [auto|]. clear IH S0 S1 W'.
  induction F as [|k e l l' Bk F IH]; [constructor|]. inversion S2; subst. inversion W2; subst. constructor; [|auto]. eapply (lttng_before h k d e); eauto.
Qed.
Lemma sensible_within hs : Forall sensible hs -> Forall within hs.
Proof. rewrite !Forall_forall. intros H h Hh. apply H in Hh. unfold sensible, within in *. tauto. Qed.

Lemma recording m cs es hs hs' : received cs = map natively hs -> Forall2 told (ours es) hs' -> Permutation hs hs' -> apart hs -> Forall sensible hs ->
  exists res res' order, finish m (map CGood cs) = FEntries res /\ lconvert m es = FDone res' /\
    Permutation order hs /\ StronglySorted before order /\ length res = length order /\ length res' = length order /\
    forall i h e f, nth_error order i = Some h -> nth_error res i = Some e -> nth_error res' i = Some f ->
      alike e f /\ own_values m h e f /\
      forall p name, native_counter m p name h = true -> only_process m p name hs -> in_time (native_counter m p name) hs -> in_time (native_counter m p name) hs' -> same_values e f.
Proof.
  intros R T P A Sn. pose proof (sensible_within _ Sn) as W. assert (W' : Forall within hs') by (rewrite Forall_forall in *; intros x Hx; apply W; eapply Permutation_in; [symmetry; exact P|exact Hx]).
  pose proof (goods _ _ R) as G. destruct (interval_counters m cs G) as (res & order & E1 & (O1 & O2 & _) & Sh & C).
  destruct (interval_own m cs G) as (res0 & order0 & E0 & (O3 & O4 & _) & _ & Ow). rewrite E1 in E0. injection E0 as <-.
  destruct (told_deeds _ _ T) as (ds & Td & Bd). destruct (counters_lemma m es ds Td) as (res' & od & E2 & (Q1 & Q2 & _) & Po & D).
  rewrite R in O1, O3. apply Permutation_sym in O1, O3.
  destruct (Permutation_map_inv _ _ (Permutation_sym O1)) as (h1 & -> & P1). destruct (Permutation_map_inv _ _ (Permutation_sym O3)) as (h0 & -> & P0).
  destruct (perm_Forall2 by_lttng ds od (Permutation_sym Q1) hs' Bd) as (h2 & P2 & B2).
  assert (U : forall l, Permutation hs l -> Forall within l /\ apart l).
  { intros l Hl. split; [|eapply apart_perm; eauto]. rewrite Forall_forall in *. intros x Hx. apply W. eapply Permutation_in; [symmetry; exact Hl|exact Hx]. }
  assert (PP2 : Permutation hs h2) by exact (Permutation_trans P P2). destruct (U _ P0) as (W0 & A0). destruct (U _ P1) as (W1 & A1). destruct (U _ PP2) as (W2 & A2).
  pose proof (sorted_native _ W0 A0 O4) as S0. pose proof (sorted_native _ W1 A1 O2) as S1. pose proof (sorted_lttng _ _ B2 W2 A2 Q2) as S2.
  assert (h0 = h1) by (apply sorted_unique; auto; etransitivity; [symmetry; exact P0|exact P1]). subst h0.
  assert (h2 = h1) by (apply sorted_unique; auto; etransitivity; [symmetry; exact PP2|exact P1]). subst h2. clear S0 S2 W0 A0 W2 A2 P0 PP2 O4 Q2 O2 P2.
  exists res, res', h1. split; [exact E1|]. split; [exact E2|]. split; [symmetry; exact P1|]. split; [exact S1|].
  pose proof (Forall2_length Sh) as L1. rewrite map_length in L1. pose proof (Forall2_length Po) as L2. pose proof (Forall2_length B2) as L3. split; [congruence|]. split; [congruence|].
  intros i h e f Hh He Hf. destruct (in_order_ex _ _ _ _ _ B2 Hh) as (d & Hd & Bhd).
  assert (Hn : nth_error (map natively h1) i = Some (natively h)) by now apply map_nth_error.
  assert (Wh : within h) by (rewrite Forall_forall in W1; apply W1; eapply nth_error_In; exact Hh).
  pose proof (in_order _ _ _ _ _ _ Sh Hn He) as S3. pose proof (in_order _ _ _ _ _ _ Po Hd Hf) as S4. pose proof (in_order _ _ _ _ _ _ Ow Hn He) as S5.
  split; [exact (match_entries m h d e f Wh S3 Bhd S4)|]. split; [exact (match_own m h d e f S3 S5 Bhd S4)|].
  intros p name Hc Ho I1 I2.
  destruct (cut_at _ _ _ Hh) as (o1 & o2 & Eo & Lo). destruct (cut_at _ _ _ He) as (e1 & e2 & Ee & Le). destruct (cut_at _ _ _ Hf) as (f1 & f2 & Ef & Lf).
  assert (X : consistent m (map natively o1) (natively h) (map natively o2) e).
  { apply (C (Z.of_N p) name) with (e1 := e1) (e2 := e2); [rewrite R; now apply native_filter|rewrite Eo, map_app; reflexivity|exact Ee|rewrite map_length; congruence|exact Hc]. }
  rewrite Eo in B2. destruct (F2_app _ _ _ _ _ B2) as (d1 & d' & d2 & Ed & Ld & Bd1 & Bd' & Bd2).
  assert (d' = d). { rewrite Ed, nth_error_app2 in Hd by (rewrite Ld, Lo; apply le_n). rewrite Ld, Lo, Nat.sub_diag in Hd. cbn in Hd. congruence. } subst d'.
  assert (O' : only_process m p name hs') by (unfold only_process in *; rewrite Forall_forall in *; intros x Hx; apply Ho; eapply Permutation_in; [symmetry; exact P|exact Hx]).
  pose proof (sole_deeds m p name _ _ Bd O') as So.
  assert (Hp : h_pid h = p).
  { unfold native_counter, is_counter in Hc. cbn [natively r_pid fst] in Hc. destruct (Z.eqb_spec (Z.of_N (h_pid h)) (Z.of_N p)); [lia|discriminate]. }
  assert (Y : faithful m d1 d d2 f).
  { apply (D p name So (lttng_filter m p name _ _ Bd W' O' I2)) with (e1 := f1) (e2 := f2); [exact Ed|exact Ef|congruence|]. rewrite <- (counts_own m name h d Bhd), Hp. exact Hc. }
  destruct X as (a & Ea & _ & Va). destruct Y as (b & Eb & _ & Vb). exists a, b. split; [exact Ea|]. split; [exact Eb|]. intro s. rewrite Va, Vb.
  rewrite <- (al_name _ _ (match_entries m h d e f Wh S3 Bhd S4)). rewrite (bl_pid _ _ Bhd). cbn [natively r_pid fst].
  change [natively h] with (map natively [h]). rewrite <- map_app. apply value_same; [|exact Bd2]. apply Forall2_app; [exact Bd1|]. constructor; [exact Bhd|constructor].
Qed.

(** ** Lines *)
Lemma digit_ok n : (n < 10)%N -> (48 <= N_of_ascii (digit_of n) <= 57)%N.
Proof. intro H. unfold digit_of. rewrite N_ascii_embedding by lia. lia. Qed.
Lemma decimals_ok k : forall n c, In c (decimals k n) -> (48 <= N_of_ascii c <= 57)%N.
Proof.
  induction k as [|k IH]; intros n c H; [contradiction|]. cbn [decimals] in H. apply in_app_or in H as [H|[<-|[]]]; [eauto|]. apply digit_ok. apply N.mod_lt. discriminate.
Qed.
Lemma clock_avoids ns : avoids "]" (clock_text ns).
Proof.
  intros c [<-|[]] H. unfold clock_text in H. apply in_app_or in H as [H|H].
  - pose proof (Str_proofs.dump_nat_digits (ns / 1000000000)) as D. rewrite forallb_forall in D. apply D in H. discriminate H.
  - apply in_app_or in H as [H|H]; [destruct H as [H|[]]; discriminate H|]. apply decimals_ok in H. cbn in H. lia.
Qed.
Lemma avoid_cons cs c l : (forall x, In x (txt cs) -> x <> c) -> avoids cs l -> avoids cs (c :: l).
Proof. intros H A x Hx [E|E]; [exact (H x Hx (eq_sym E))|exact (A x Hx E)]. Qed.
Ltac avoid := let c := fresh in let H := fresh in intros c H; repeat (destruct H as [<-|H]; [intro H; repeat (destruct H as [H|H]; [discriminate H|]); exact H|]); destruct H.
Lemma line_good host cpu h : avoids " " host -> (cpu < 2 ^ 32)%N -> sensible h -> good (printed_of host cpu (h_pid h) (h_tid h) (lttng_event_of (h_point h) (h_time h))).
Proof.
  intros Hh Hc ((S1 & S2 & S3 & S4) & S5). unfold good, printed_of, lttng_event_of. cbn [p_time p_host p_domain p_name p_stream p_context p_data le_time le_name le_fields].
  split; [apply clock_avoids|]. split; [exact Hh|]. split; [avoid|].
  split; [destruct (h_point h) as [id|id|[] id|id v]; cbn [lttng_point fst]; avoid|].
  assert (F : forall (k : string) z, txt k <> [] -> avoids " ,{}" (txt k) -> (- 2 ^ 63 <= z < 2 ^ 64)%Z -> good_field (txt k, FInt z)) by (intros; split; auto).
  split; [split; [constructor; [apply F; [discriminate|avoid|lia]|constructor]|apply NoDup_cons; [exact (fun x => x)|constructor]]|].
  split.
  - split; [repeat (constructor; [apply F; [discriminate|avoid|lia]|]); constructor|]. cbn [map fst]. apply NoDup_cons; [intros [X|[]]; discriminate X|]. apply NoDup_cons; [exact (fun x => x)|constructor].
  - assert (Hv : forall id v, h_point h = TpCount id v -> (- 2 ^ 63 <= v < 2 ^ 64)%Z) by (intros id v E; specialize (S5 id v E); lia).
    destruct (h_point h) as [id|id|[] id|id v]; cbn [lttng_point snd point_id] in *; unfold id_field;
      try (split; [constructor; [apply F; [discriminate|avoid|lia]|constructor]|apply NoDup_cons; [exact (fun x => x)|constructor]]).
    split; [constructor; [apply F; [discriminate|avoid|lia]|constructor; [apply F; [discriminate|avoid|exact (Hv id v eq_refl)]|constructor]]|].
    cbn [map fst]. apply NoDup_cons; [intros [X|[]]; discriminate X|]. apply NoDup_cons; [exact (fun x => x)|constructor].
Qed.
Lemma line_told (strtod : str -> real_result spec_float) early host cpu h t rest : sensible h -> avoids " " host -> (cpu < 2 ^ 32)%N ->
  strtod (clock_text (h_time h)) = DValue t -> double_of t (IZR (Z.of_N (h_time h)) / 1000000000)%R -> rest = [] \/ rest = [ascii_of_N 10] ->
  exists e, parse strtod early (line_text (printed_of host cpu (h_pid h) (h_tid h) (lttng_event_of (h_point h) (h_time h))) ++ rest) = Done e /\
    told e h /\ c_domain e = scalopus_domain.
Proof.
  intros Hs Hh Hc Ht Hd Hr. pose proof (line_good host cpu h Hh Hc Hs) as G. set (p := printed_of _ _ _ _ _) in *.
  destruct (line_lemma strtod early p t rest G Ht Hr) as (e & He & _). exists e. split; [exact He|].
  set (d := {| d_time := t; d_pid := h_pid h; d_tid := h_tid h; d_id := point_id (h_point h); d_kind := point_kind (h_point h) |}).
  assert (Pd : prints d p).
  { destruct Hs as ((S1 & S2 & S3 & S4) & S5). unfold prints, d, p, printed_of, lttng_event_of. cbn [d_time d_pid d_tid d_id d_kind p_time p_host p_domain p_name p_stream p_context p_data le_time le_name le_fields].
    split; [reflexivity|]. split; [destruct (h_point h) as [id|id|[] id|id v]; reflexivity|]. split; [now left|]. split; [right; now left|].
    split; [destruct (h_point h) as [id|id|[] id|id v]; now left|]. split; [exact S1|]. split; [exact S4|].
    intros z Hz. destruct (h_point h) as [id|id|[] id|id v]; cbn [point_kind] in Hz; try discriminate Hz. injection Hz as ->. split; [exact (S5 id z eq_refl)|right; now left]. }
  assert (Hn : t <> S754_nan) by (intros ->; destruct Hd as (_ & F & _); discriminate F).
  destruct (printed_lemma strtod early p d rest e G Pd Ht Hn Hr He) as (T & Di). split; [|exact Di]. exists d. split; [|exact T]. constructor; try reflexivity. exact Hd.
Qed.

(** Whatever the times: the same entries, perhaps in another order. *)
Lemma recording_any m cs es hs hs' : received cs = map natively hs -> Forall2 told (ours es) hs' -> Permutation hs hs' -> Forall sensible hs ->
  exists res res' partners, finish m (map CGood cs) = FEntries res /\ lconvert m es = FDone res' /\ Permutation partners res' /\ Forall2 alike res partners.
Proof.
  intros R T P Sn. pose proof (sensible_within _ Sn) as W. pose proof (goods _ _ R) as G. destruct (interval_counters m cs G) as (res & order & E1 & (O1 & _) & Sh & _).
  destruct (told_deeds _ _ T) as (ds & Td & Bd). destruct (counters_lemma m es ds Td) as (res' & od & E2 & (Q1 & _) & Po & _).
  rewrite R in O1. destruct (Permutation_map_inv _ _ O1) as (h1 & -> & P1).
  destruct (perm_Forall2 by_lttng ds od (Permutation_sym Q1) hs' Bd) as (h2 & P2 & B2).
  assert (C : Forall2 (fun h f => exists d, by_lttng h d /\ portrays m d f) h2 res').
  { clear - B2 Po. revert res' Po. induction B2 as [|h d h2 od B F IH]; intros res' Po; inversion Po; subst; constructor; eauto. }
  assert (C' : Forall2 (fun f h => exists d, by_lttng h d /\ portrays m d f) res' h2) by (clear - C; induction C; constructor; auto).
  assert (P3 : Permutation h2 h1) by (etransitivity; [symmetry; exact P2|]; etransitivity; [symmetry; exact P|exact P1]).
  destruct (perm_Forall2 (fun f h => exists d, by_lttng h d /\ portrays m d f) h2 h1 P3 res' C') as (partners & P4 & F4).
  exists res, res', partners. split; [exact E1|]. split; [exact E2|]. split; [symmetry; exact P4|].
  assert (W1 : Forall within h1) by (rewrite Forall_forall in *; intros x Hx; apply W; eapply Permutation_in; [symmetry; exact P1|exact Hx]).
  clear - Sh F4 W1. revert res partners Sh F4. induction h1 as [|h h1 IH]; intros res partners Sh F4; inversion Sh; subst; inversion F4; subst; constructor.
  - inversion W1; subst. match goal with H : exists _, _ |- _ => destruct H as (d & B & Pd) end. eapply match_entries; eauto.
  - inversion W1; subst. apply IH; auto.
Qed.

(** The time printed is the time, to the nanosecond. *)
Lemma number_more ds : forall a, fold_left (fun a c => (10 * a + (N_of_ascii c - 48))%N) ds a = (a * 10 ^ N.of_nat (length ds) + number_of ds)%N.
Proof.
  unfold number_of. induction ds as [|c ds IH]; intro a; [cbn; lia|]. cbn [fold_left length]. rewrite IH, (IH (10 * 0 + _)%N). rewrite Nat2N.inj_succ, N.pow_succ_r'. lia.
Qed.
Lemma number_app a b : number_of (a ++ b) = (number_of a * 10 ^ N.of_nat (length b) + number_of b)%N.
Proof. unfold number_of at 1. rewrite fold_left_app. rewrite number_more. reflexivity. Qed.
Lemma decimals_length k : forall n, length (decimals k n) = k.
Proof. induction k as [|k IH]; intro n; [reflexivity|]. cbn [decimals]. rewrite app_length, IH. cbn. lia. Qed.
Lemma decimals_value k : forall n, (n < 10 ^ N.of_nat k)%N -> number_of (decimals k n) = n.
Proof.
  induction k as [|k IH]; intros n H; [cbn in *; lia|]. cbn [decimals]. rewrite Nat2N.inj_succ, N.pow_succ_r' in H. rewrite number_app, IH by (apply N.div_lt_upper_bound; lia).
  change (10 ^ N.of_nat (length [digit_of (n mod 10)]))%N with 10%N. unfold number_of. cbn [fold_left]. pose proof (N.mod_lt n 10 ltac:(discriminate)) as M. unfold digit_of. rewrite N_ascii_embedding by lia.
  pose proof (N.div_mod n 10 ltac:(discriminate)) as D. remember (n / 10)%N as q. remember (n mod 10)%N as r. lia.
Qed.
Lemma clock_exact ns : exists a b, clock_text ns = a ++ txt "." ++ b /\ length b = 9 /\ number_of (a ++ b) = ns /\ Forall (fun c => is_decimal c = true) (a ++ b).
Proof.
  exists (dump_nat (ns / 1000000000)), (decimals 9 (ns mod 1000000000)). split; [reflexivity|]. split; [apply decimals_length|]. split.
  - rewrite number_app, decimals_length. change (number_of (dump_nat (ns / 1000000000))) with (digits_value (dump_nat (ns / 1000000000))). rewrite Str_proofs.dump_nat_value.
    change (10 ^ N.of_nat 9)%N with 1000000000%N. rewrite decimals_value by (change (10 ^ N.of_nat 9)%N with 1000000000%N; apply N.mod_lt; discriminate).
    pose proof (N.div_mod ns 1000000000 ltac:(discriminate)). lia.
  - rewrite Forall_forall. intros c H. unfold is_decimal. apply in_app_or in H as [H|H].
    + pose proof (Str_proofs.dump_nat_digits (ns / 1000000000)) as D. rewrite forallb_forall in D. apply D in H. exact H.
    + apply decimals_ok in H. apply andb_true_intro. split; apply N.leb_le; lia.
Qed.
