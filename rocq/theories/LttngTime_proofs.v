(** The time shown of an event of LTTng (microseconds in double precision) against the time babeltrace printed (seconds). As in [FloatTime_proofs], these theorems rest on the axioms of
    the standard library's real numbers. *)
From Coq Require Import List ZArith NArith Reals Lia Lra Psatz Floats.SpecFloat Sorting.Sorted.
Import ListNotations.
From Flocq Require Import Core.Core IEEE754.BinarySingleNaN.
From Verif Require Import Native_model FloatTime_proofs Lttng_model.
Local Open Scope R_scope.
#[local] Existing Instance Hprec.
#[local] Existing Instance Hmax.
#[local] Existing Instance fx_valid.

(** [t] is the double nearest to the number [x] (on a tie the even one), which is what [std::stod] gives for a text that stands for [x]. *)
Definition double_of (t : spec_float) (x : R) : Prop :=
  valid_binary 53 1024 t = true /\ is_finite_SF t = true /\ SF2R radix2 t = round radix2 (SpecFloat.fexp 53 1024) ZnearestE x.

Lemma mul_equiv x y : SFmul prec emax (B2SF x) (B2SF y) = B2SF (@Bmult prec emax Hprec Hmax mode_NE x y).
Proof.
  destruct x as [sx|sx| |sx mx ex Bx], y as [sy|sy| |sy my ey By]; try reflexivity. cbn. rewrite B2SF_SF2B. apply round_aux_equiv.
Qed.
Lemma million_exact : B2R (D 1000000) = 1000000.
Proof.
  assert (H : (0 <= 1000000 <= 2 ^ 64)%Z) by lia. destruct (D_correct 1000000 H) as [-> _].
  apply round_generic; auto with typeclass_instances.
  replace 1000000 with (F2R (Float radix2 1000000 0)) by (unfold F2R; cbn; ring).
  apply generic_format_F2R. intros _. unfold cexp. rewrite fx_val.
  rewrite (mag_F2R radix2 1000000 0) by lia. pose proof (mag_le_bpow radix2 (IZR 1000000) 20) as M.
  assert (mag radix2 (IZR 1000000) <= 20)%Z; [|lia]. apply M; [apply not_0_IZR; lia|]. rewrite Rabs_pos_eq by (apply IZR_le; lia). cbn. lra.
Qed.
Lemma million_finite : is_finite (D 1000000) = true.
Proof. assert (H : (0 <= 1000000 <= 2 ^ 64)%Z) by lia. now destruct (D_correct 1000000 H) as (_ & H1 & _). Qed.

Lemma shown_value t x : double_of t x -> 0 <= x < bpow radix2 32 ->
  exists b : binary_float prec emax, lts t = B2SF b /\ is_finite b = true /\ B2R b = rnd (rnd x * 1000000).
Proof.
  intros (HV & HF & HR) Hx. pose (a := SF2B t HV : binary_float prec emax).
  assert (Ea : B2SF a = t) by apply B2SF_SF2B.
  assert (Fa : is_finite a = true) by (rewrite <- is_finite_SF_B2SF, Ea; exact HF).
  assert (Ra : B2R a = rnd x) by (rewrite <- SF2R_B2SF, Ea; exact HR).
  exists (@Bmult prec emax Hprec Hmax mode_NE a (D 1000000)). split.
  - unfold lts, to_double. change 53%Z with prec. change 1024%Z with emax. rewrite normalize_equiv, <- mul_equiv, Ea. reflexivity.
  - pose proof (Bmult_correct prec emax Hprec Hmax mode_NE a (D 1000000)) as H. rewrite Ra, million_exact in H. cbn [round_mode] in H.
    change (SpecFloat.fexp prec emax) with fx in H. fold (rnd (rnd x * 1000000)) in H.
    assert (B0 : 0 <= rnd x <= bpow radix2 32).
    { split; [rewrite <- rnd_0; apply rnd_le; lra|]. rewrite <- (bpow_format 32) by lia. apply rnd_le. lra. }
    assert (B32 : bpow radix2 32 = 4294967296) by (cbn; lra).
    assert (B64 : bpow radix2 64 = 18446744073709551616) by (cbn; lra).
    rewrite Rlt_bool_true in H.
    + destruct H as (H1 & H2 & _). rewrite H2, Fa, million_finite. auto.
    + assert (B : 0 <= rnd (rnd x * 1000000) <= bpow radix2 64).
      { split; [rewrite <- rnd_0; apply rnd_le; lra|]. rewrite <- (bpow_format 64) by lia. apply rnd_le. lra. }
      rewrite Rabs_pos_eq by lra. pose proof big. lra.
Qed.
Lemma shown_error x : 0 <= x < bpow radix2 32 -> Rabs (rnd (rnd x * 1000000) - x * 1000000) < / 2.
Proof.
  intros Hx. assert (B32 : bpow radix2 32 = 4294967296) by (cbn; lra).
  assert (B52 : bpow radix2 52 = 4503599627370496) by (cbn; lra).
  assert (Bm21 : bpow radix2 (32 - 53) = / 2097152) by (cbn; lra).
  assert (Bm1 : bpow radix2 (52 - 53) = / 2) by (cbn; lra).
  assert (E1 : Rabs (rnd x - x) <= / 2 * / 2097152) by (rewrite <- Bm21; apply rnd_error; [lia|rewrite Rabs_pos_eq; lra]).
  apply Rabs_le_inv in E1. assert (Hrx : 0 <= rnd x) by (rewrite <- rnd_0; apply rnd_le; lra).
  assert (E3 : Rabs (rnd (rnd x * 1000000) - rnd x * 1000000) <= / 2 * / 2).
  { rewrite <- Bm1. apply rnd_error; [lia|]. rewrite Rabs_pos_eq by lra. lra. }
  apply Rabs_le_inv in E3. apply Rabs_def1; lra.
Qed.
(** Up to [2^32] seconds (the year 2106), the time shown is the printed one in microseconds, to less than half a microsecond. *)
Theorem lts_accurate t x : double_of t x -> 0 <= x < bpow radix2 32 -> Rabs (SF2R radix2 (lts t) - x * 1000000) < / 2.
Proof.
  intros HD Hx. destruct (shown_value t x HD Hx) as (b & -> & _ & Eb). rewrite SF2R_B2SF, Eb. now apply shown_error.
Qed.
Lemma ltb_lts t x u y : double_of t x -> double_of u y -> 0 <= x < bpow radix2 32 -> 0 <= y < bpow radix2 32 ->
  SFltb (lts t) (lts u) = true <-> rnd (rnd x * 1000000) < rnd (rnd y * 1000000).
Proof.
  intros Dx Dy Hx Hy. destruct (shown_value t x Dx Hx) as (a & -> & Fa & Ea). destruct (shown_value u y Dy Hy) as (b & -> & Fb & Eb).
  pose proof (Bcompare_correct prec emax a b Fa Fb) as H. unfold Bcompare in H. unfold SFltb. rewrite H, Ea, Eb.
  destruct (Rcompare_spec (rnd (rnd x * 1000000)) (rnd (rnd y * 1000000))); split; intros; try discriminate; auto; lra.
Qed.
(** Printed no later, shown no later; a microsecond apart, shown in order. *)
Theorem lts_order t x u y : double_of t x -> double_of u y -> 0 <= x < bpow radix2 32 -> 0 <= y < bpow radix2 32 ->
  (x <= y -> SFltb (lts u) (lts t) = false) /\ (x + / 1000000 <= y -> SFltb (lts t) (lts u) = true).
Proof.
  intros Dx Dy Hx Hy. split; intros H.
  - destruct (SFltb (lts u) (lts t)) eqn:E; auto. exfalso. apply (ltb_lts u y t x) in E; auto. apply (Rlt_not_le _ _ E). apply rnd_le. apply Rmult_le_compat_r; [lra|]. now apply rnd_le.
  - apply (ltb_lts t x u y); auto. pose proof (shown_error x Hx) as E1. pose proof (shown_error y Hy) as E2. apply Rabs_def2 in E1, E2. lra.
Qed.

(** The time 1.5 s, which is a double. *)
Example one_and_a_half : double_of (S754_finite false 6755399441055744 (-52)) (3 / 2) /\ 0 <= 3 / 2 < bpow radix2 32 /\
  SF2R radix2 (lts (S754_finite false 6755399441055744 (-52))) = 1500000.
Proof.
  assert (E : SF2R radix2 (S754_finite false 6755399441055744 (-52)) = 3 / 2) by (cbn; unfold F2R; cbn; lra).
  split; [|split].
  - split; [reflexivity|]. split; [reflexivity|]. rewrite E. symmetry. apply round_generic; auto with typeclass_instances.
    replace (3 / 2) with (F2R (Float radix2 3 (-1))) by (unfold F2R; cbn; lra). apply generic_format_F2R. intros _. unfold cexp.
    rewrite (mag_F2R radix2 3 (-1)) by lia. change (SpecFloat.fexp 53 1024) with fx. rewrite fx_val.
    pose proof (mag_le_bpow radix2 (IZR 3) 2) as M. assert (mag radix2 (IZR 3) <= 2)%Z; [|lia]. apply M; [apply not_0_IZR; lia|]. rewrite Rabs_pos_eq by (apply IZR_le; lia). cbn. lra.
  - cbn. lra.
  - replace (lts (S754_finite false 6755399441055744 (-52))) with (S754_finite false 6442450944000000 (-32)) by (vm_compute; reflexivity).
    cbn. unfold F2R. cbn. lra.
Qed.
