(** The time shown (microseconds in double precision) against the time recorded (nanoseconds). Rounding is related to the real
    numbers with Flocq, so these theorems rest on the axioms of the standard library's real numbers. *)
From Coq Require Import List ZArith NArith Reals Lia Lra Psatz Floats.SpecFloat Sorting.Sorted.
Import ListNotations.
From Flocq Require Import Core.Core IEEE754.BinarySingleNaN.
From Verif Require Import TraceEvent_model Native_model Native_spec.
Local Open Scope R_scope.

Definition prec : Z := 53%Z.
Definition emax : Z := 1024%Z.
Lemma Hprec : Prec_gt_0 prec. Proof. reflexivity. Qed.
Lemma Hmax : Prec_lt_emax prec emax. Proof. reflexivity. Qed.
#[local] Existing Instance Hprec.
#[local] Existing Instance Hmax.
Definition fx : Z -> Z := SpecFloat.fexp prec emax.
Definition rnd (x : R) : R := round radix2 fx ZnearestE x.

Lemma nearest_equiv s m l : round_nearest_even m l = choice_mode mode_NE s m l.
Proof. case l; [reflexivity|intro c]. case c; try reflexivity. cbn. now destruct (Z.even m). Qed.
Lemma round_aux_equiv sx mx ex lx : SpecFloat.binary_round_aux prec emax sx mx ex lx = BinarySingleNaN.binary_round_aux prec emax mode_NE sx mx ex lx.
Proof.
  unfold SpecFloat.binary_round_aux, BinarySingleNaN.binary_round_aux.
  set (mrse' := shr_fexp _ _ _ _ _). case mrse' as [mrs' e']. now rewrite (nearest_equiv sx).
Qed.
Lemma round_equiv s m e : SpecFloat.binary_round prec emax s m e = BinarySingleNaN.binary_round prec emax mode_NE s m e.
Proof.
  unfold SpecFloat.binary_round, BinarySingleNaN.binary_round, shl_align_fexp.
  set (mez := shl_align _ _ _). case mez as [mz ez]. apply round_aux_equiv.
Qed.
Lemma normalize_equiv m e z : SpecFloat.binary_normalize prec emax m e z = B2SF (BinarySingleNaN.binary_normalize prec emax Hprec Hmax mode_NE m e z).
Proof.
  case m as [|p|p]; [reflexivity| |]; cbn; rewrite B2SF_SF2B; apply round_equiv.
Qed.
Lemma div_equiv x y : SFdiv prec emax (B2SF x) (B2SF y) = B2SF (@Bdiv prec emax Hprec Hmax mode_NE x y).
Proof.
  destruct x as [sx|sx| |sx mx ex Bx], y as [sy|sy| |sy my ey By]; try reflexivity. cbn -[SFdiv_core_binary].
  rewrite B2SF_SF2B. set (melz := SFdiv_core_binary _ _ _ _ _ _). case melz as [[mz ez] lz]. apply round_aux_equiv.
Qed.

Lemma fx_valid : Valid_exp fx.
Proof. exact (@fexp_correct prec emax Hprec). Qed.
#[local] Existing Instance fx_valid.

Lemma fx_val e : fx e = Z.max (e - 53) (-1074).
Proof. reflexivity. Qed.

Lemma rnd_le x y : x <= y -> rnd x <= rnd y.
Proof. apply round_le; auto with typeclass_instances. Qed.
Lemma rnd_0 : rnd 0 = 0.
Proof. apply round_0; auto with typeclass_instances. Qed.

(** The error of rounding a number below [2^e] is at most half of [2^(e-53)]. *)
Lemma rnd_error x e : (-1000 <= e)%Z -> Rabs x < bpow radix2 e -> Rabs (rnd x - x) <= / 2 * bpow radix2 (e - 53).
Proof.
  intros He Hx. destruct (Req_dec x 0) as [->|Hz].
  - rewrite rnd_0. rewrite Rminus_0_r, Rabs_R0. apply Rmult_le_pos; [lra|apply bpow_ge_0].
  - apply Rle_trans with (/ 2 * ulp radix2 fx x).
    + apply error_le_half_ulp; auto with typeclass_instances.
    + apply Rmult_le_compat_l; [lra|]. rewrite ulp_neq_0 by auto. apply bpow_le. unfold cexp. rewrite fx_val.
      pose proof (mag_le_bpow radix2 x e Hz Hx) as H. lia.
Qed.

Definition D (z : Z) := BinarySingleNaN.binary_normalize prec emax Hprec Hmax mode_NE z 0 false.
Lemma big : bpow radix2 64 < bpow radix2 emax.
Proof. apply bpow_lt. reflexivity. Qed.

Lemma bpow_format e : (-1000 <= e)%Z -> rnd (bpow radix2 e) = bpow radix2 e.
Proof. intros He. apply round_generic; auto with typeclass_instances. apply generic_format_bpow. rewrite fx_val. lia. Qed.

Lemma D_correct z : (0 <= z <= 2 ^ 64)%Z -> B2R (D z) = rnd (IZR z) /\ is_finite (D z) = true /\ 0 <= B2R (D z) <= bpow radix2 64.
Proof.
  intros Hz. pose proof (binary_normalize_correct prec emax Hprec Hmax mode_NE z 0 false) as H. cbn zeta in H. fold (D z) in H.
  assert (E : F2R (Float radix2 z 0) = IZR z) by (unfold F2R; cbn; ring). rewrite E in H. cbn [round_mode] in H.
  change (SpecFloat.fexp prec emax) with fx in H. fold (rnd (IZR z)) in H.
  assert (B : 0 <= rnd (IZR z) <= bpow radix2 64).
  { split.
    - rewrite <- rnd_0. apply rnd_le. apply IZR_le. lia.
    - rewrite <- (bpow_format 64) by lia. apply rnd_le. change (bpow radix2 64) with (IZR (2 ^ 64)). apply IZR_le. lia. }
  rewrite Rlt_bool_true in H.
  - destruct H as (H1 & H2 & _). rewrite H1. auto.
  - rewrite Rabs_pos_eq by lra. pose proof big. lra.
Qed.

Lemma thousand_exact : B2R (D 1000) = 1000.
Proof.
  assert (H : (0 <= 1000 <= 2 ^ 64)%Z) by lia. destruct (D_correct 1000 H) as [-> _].
  apply round_generic; auto with typeclass_instances.
  replace 1000 with (F2R (Float radix2 1000 0)) by (unfold F2R; cbn; ring).
  apply generic_format_F2R. intros _. unfold cexp. rewrite fx_val.
  rewrite (mag_F2R radix2 1000 0) by lia. pose proof (mag_le_bpow radix2 (IZR 1000) 10) as M.
  assert (mag radix2 (IZR 1000) <= 10)%Z; [|lia]. apply M; [apply not_0_IZR; lia|]. rewrite Rabs_pos_eq by (apply IZR_le; lia). cbn. lra.
Qed.

Definition T (n : Z) := @Bdiv prec emax Hprec Hmax mode_NE (D n) (D 1000).
Lemma T_ts n : ts_of n = B2SF (T (Z.of_N n)).
Proof.
  unfold ts_of, to_double, T. change 53%Z with prec. change 1024%Z with emax. rewrite !normalize_equiv. apply div_equiv.
Qed.
Lemma T_correct z : (0 <= z <= 2 ^ 64)%Z -> B2R (T z) = rnd (rnd (IZR z) / 1000) /\ is_finite (T z) = true.
Proof.
  intros Hz. destruct (D_correct z Hz) as (H1 & H2 & H3).
  pose proof (Bdiv_correct prec emax Hprec Hmax mode_NE (D z) (D 1000)) as H. fold (T z) in H. rewrite thousand_exact in H.
  specialize (H ltac:(lra)). cbn [round_mode] in H. change (SpecFloat.fexp prec emax) with fx in H. fold (rnd (B2R (D z) / 1000)) in H.
  rewrite Rlt_bool_true in H.
  - destruct H as (E & F & _). rewrite E, F, H1. auto.
  - assert (B : 0 <= rnd (B2R (D z) / 1000) <= bpow radix2 64).
    { split; [rewrite <- rnd_0; apply rnd_le; lra|]. rewrite <- (bpow_format 64) by lia. apply rnd_le. lra. }
    rewrite Rabs_pos_eq by lra. pose proof big. lra.
Qed.

Lemma ltb_T a b : (a <= 2 ^ 64)%N -> (b <= 2 ^ 64)%N ->
  SFltb (ts_of a) (ts_of b) = true <-> rnd (rnd (IZR (Z.of_N a)) / 1000) < rnd (rnd (IZR (Z.of_N b)) / 1000).
Proof.
  intros Ha Hb. rewrite !T_ts.
  assert (Ha' : (0 <= Z.of_N a <= 2 ^ 64)%Z) by lia. assert (Hb' : (0 <= Z.of_N b <= 2 ^ 64)%Z) by lia.
  destruct (T_correct _ Ha') as [Ea Fa]. destruct (T_correct _ Hb') as [Eb Fb].
  pose proof (Bcompare_correct prec emax (T (Z.of_N a)) (T (Z.of_N b)) Fa Fb) as H. unfold Bcompare in H. unfold SFltb. rewrite H, Ea, Eb.
  destruct (Rcompare_spec (rnd (rnd (IZR (Z.of_N a)) / 1000)) (rnd (rnd (IZR (Z.of_N b)) / 1000))); split; intros; try discriminate; auto; lra.
Qed.

(** Recorded no later, shown no later. *)
Theorem ts_monotone a b : (a <= b)%N -> (b < 2 ^ 64)%N -> SFltb (ts_of b) (ts_of a) = false.
Proof.
  intros H Hb. destruct (SFltb (ts_of b) (ts_of a)) eqn:E; auto. exfalso.
  apply ltb_T in E; [|lia|lia]. apply (Rlt_not_le _ _ E). apply rnd_le. apply Rmult_le_compat_r; [lra|]. apply rnd_le. apply IZR_le. lia.
Qed.

(** A microsecond apart, shown in order; up to [2^61] nanoseconds since the epoch (the year 2043). *)
Theorem ts_strict a b : (a + 1000 <= b)%N -> (b < 2 ^ 61)%N -> SFltb (ts_of a) (ts_of b) = true.
Proof.
  intros H Hb. apply ltb_T; [lia|lia|]. set (x := IZR (Z.of_N a)). set (y := IZR (Z.of_N b)).
  assert (Hx0 : 0 <= x) by (apply IZR_le; lia).
  assert (Hxy : x + 1000 <= y) by (unfold x, y; rewrite <- plus_IZR; apply IZR_le; lia).
  assert (Hy : y < bpow radix2 61) by (change (bpow radix2 61) with (IZR (2 ^ 61)); apply IZR_lt; lia).
  assert (B61 : bpow radix2 61 = 2305843009213693952) by (cbn; lra).
  assert (B52 : bpow radix2 52 = 4503599627370496) by (cbn; lra).
  assert (B8 : bpow radix2 (61 - 53) = 256) by (cbn; lra).
  assert (Bm1 : bpow radix2 (52 - 53) = / 2) by (cbn; lra).
  assert (E1 : Rabs (rnd x - x) <= / 2 * 256) by (rewrite <- B8; apply rnd_error; [lia|rewrite Rabs_pos_eq; lra]).
  assert (E2 : Rabs (rnd y - y) <= / 2 * 256) by (rewrite <- B8; apply rnd_error; [lia|rewrite Rabs_pos_eq; lra]).
  apply Rabs_le_inv in E1, E2.
  assert (Hrx : 0 <= rnd x) by (rewrite <- rnd_0; apply rnd_le; auto).
  assert (Hry : 0 <= rnd y) by (rewrite <- rnd_0; apply rnd_le; lra).
  assert (E3 : Rabs (rnd (rnd x / 1000) - rnd x / 1000) <= / 2 * / 2).
  { rewrite <- Bm1. apply rnd_error; [lia|]. rewrite Rabs_pos_eq by lra. lra. }
  assert (E4 : Rabs (rnd (rnd y / 1000) - rnd y / 1000) <= / 2 * / 2).
  { rewrite <- Bm1. apply rnd_error; [lia|]. rewrite Rabs_pos_eq by lra. lra. }
  apply Rabs_le_inv in E3, E4. lra.
Qed.

(** What is shown earlier was recorded earlier, or less than a microsecond later and is shown at the same time. *)
Theorem order_recorded order l : time_order order l ->
  forall o1 a o2 b o3, order = (o1 ++ a :: o2 ++ b :: o3)%list ->
  (te_time (r_ev a) < 2 ^ 61)%N -> (te_time (r_ev b) < 2 ^ 61)%N ->
  (te_time (r_ev a) <= te_time (r_ev b))%N \/ ((te_time (r_ev a) < te_time (r_ev b) + 1000)%N /\ same_time a b = true).
Proof.
  intros (_ & HS & _) o1 a o2 b o3 -> Ha Hb.
  assert (H : shown_before b a = false).
  { clear Ha Hb. induction o1 as [|x o1 IH]; cbn in HS; inversion HS as [|? ? HS' HF]; subst; auto.
    rewrite Forall_forall in HF. apply HF. apply in_or_app. right. now left. }
  destruct (N.le_gt_cases (te_time (r_ev a)) (te_time (r_ev b))) as [Hle|Hgt]; [now left|]. right. split.
  - destruct (N.lt_ge_cases (te_time (r_ev a)) (te_time (r_ev b) + 1000)) as [|Hge]; auto. exfalso.
    pose proof (ts_strict _ _ Hge Ha) as E. unfold shown_before in H. congruence.
  - unfold same_time. rewrite H. unfold shown_before. rewrite ts_monotone; [reflexivity|lia|lia].
Qed.

(** The time shown is the recorded one in microseconds, to less than half a microsecond. *)
Theorem ts_accurate n : (n < 2 ^ 61)%N -> Rabs (SF2R radix2 (ts_of n) - IZR (Z.of_N n) / 1000) < / 2.
Proof.
  intros Hn. rewrite T_ts, SF2R_B2SF. assert (Hz : (0 <= Z.of_N n <= 2 ^ 64)%Z) by lia. destruct (T_correct _ Hz) as [-> _].
  set (x := IZR (Z.of_N n)). assert (Hx0 : 0 <= x) by (apply IZR_le; lia).
  assert (Hx : x < bpow radix2 61) by (change (bpow radix2 61) with (IZR (2 ^ 61)); apply IZR_lt; lia).
  assert (B61 : bpow radix2 61 = 2305843009213693952) by (cbn; lra).
  assert (B52 : bpow radix2 52 = 4503599627370496) by (cbn; lra).
  assert (B8 : bpow radix2 (61 - 53) = 256) by (cbn; lra).
  assert (Bm1 : bpow radix2 (52 - 53) = / 2) by (cbn; lra).
  assert (E1 : Rabs (rnd x - x) <= / 2 * 256) by (rewrite <- B8; apply rnd_error; [lia|rewrite Rabs_pos_eq; lra]).
  apply Rabs_le_inv in E1. assert (Hrx : 0 <= rnd x) by (rewrite <- rnd_0; apply rnd_le; auto).
  assert (E3 : Rabs (rnd (rnd x / 1000) - rnd x / 1000) <= / 2 * / 2).
  { rewrite <- Bm1. apply rnd_error; [lia|]. rewrite Rabs_pos_eq by lra. lra. }
  apply Rabs_le_inv in E3. apply Rabs_def1; lra.
Qed.
