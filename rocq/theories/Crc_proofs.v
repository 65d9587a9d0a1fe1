(** Proofs about the checksum. *)
From Coq Require Import String List NArith Ascii Lia Bool.
Import ListNotations.
From Verif Require Import Crc_model Crc_spec.
Open Scope N_scope.

Definition w32 : N := 0x100000000.

Lemma poly_is_standard : poly = reversed 32 standard_poly 0.
Proof. reflexivity. Qed.

(** ** One bit is linear and injective *)
Lemma crc_bit_alt r : crc_bit r = N.lxor (N.shiftr r 1) (if N.testbit r 0 then poly else 0).
Proof. unfold crc_bit. rewrite N.bit0_odd, N.div2_spec. destruct (N.odd r); now rewrite ?N.lxor_0_r. Qed.

Lemma crc_bit_lxor a b : crc_bit (N.lxor a b) = N.lxor (crc_bit a) (crc_bit b).
Proof.
  rewrite !crc_bit_alt, N.shiftr_lxor, N.lxor_spec. apply N.bits_inj. intros n. rewrite !N.lxor_spec.
  destruct (N.testbit a 0), (N.testbit b 0); cbn [xorb]; rewrite ?N.bits_0; destruct (N.testbit (N.shiftr a 1) n), (N.testbit (N.shiftr b 1) n), (N.testbit poly n); reflexivity.
Qed.

Lemma lt_bits a n : a < 2 ^ n <-> (forall m, n <= m -> N.testbit a m = false).
Proof.
  split.
  - intros H m Hm. destruct (N.eq_dec a 0) as [->|Ha]; [apply N.bits_0|]. apply N.bits_above_log2. apply N.log2_lt_pow2 in H; lia.
  - intros H. destruct (N.eq_dec a 0) as [->|Ha]; [apply N.neq_0_lt_0, N.pow_nonzero; lia|]. apply N.log2_lt_pow2; [lia|].
    destruct (N.lt_ge_cases (N.log2 a) n) as [|Hge]; auto. specialize (H _ Hge). rewrite N.bit_log2 in H by auto. discriminate.
Qed.

Lemma lxor_lt a b n : a < 2 ^ n -> b < 2 ^ n -> N.lxor a b < 2 ^ n.
Proof. rewrite !lt_bits. intros Ha Hb m Hm. rewrite N.lxor_spec, Ha, Hb by auto. reflexivity. Qed.

Lemma shiftr_lt a k n : a < 2 ^ n -> N.shiftr a k < 2 ^ n.
Proof. rewrite !lt_bits. intros Ha m Hm. rewrite N.shiftr_spec by lia. apply Ha. lia. Qed.

Lemma crc_bit_lt r : r < 2 ^ 32 -> crc_bit r < 2 ^ 32.
Proof. intros H. rewrite crc_bit_alt. apply lxor_lt; [now apply shiftr_lt|]. destruct (N.testbit r 0); reflexivity. Qed.

Lemma crc_bit_zero r : r < 2 ^ 32 -> crc_bit r = 0 -> r = 0.
Proof.
  intros Hr H. rewrite crc_bit_alt in H. apply N.lxor_eq in H. destruct (N.testbit r 0) eqn:E0.
  - exfalso. assert (B : N.testbit (N.shiftr r 1) 31 = true) by (rewrite H; reflexivity). rewrite N.shiftr_spec in B by lia. rewrite lt_bits in Hr. rewrite Hr in B by lia. discriminate.
  - apply N.bits_inj. intros n. rewrite N.bits_0. destruct (N.eq_dec n 0) as [->|Hn]; auto.
    replace n with (n - 1 + 1) by lia. rewrite <- N.shiftr_spec by lia. rewrite H. apply N.bits_0.
Qed.

(** ** Several bits *)
Definition bits8 (r : N) : N := Nat.iter 8 crc_bit r.

Lemma iter_S n x : Nat.iter (S n) crc_bit x = crc_bit (Nat.iter n crc_bit x).
Proof. reflexivity. Qed.
Lemma iter_lxor n a b : Nat.iter n crc_bit (N.lxor a b) = N.lxor (Nat.iter n crc_bit a) (Nat.iter n crc_bit b).
Proof. induction n as [|n IH]; [reflexivity|]. now rewrite !iter_S, IH, crc_bit_lxor. Qed.
Lemma iter_lt n r : r < 2 ^ 32 -> Nat.iter n crc_bit r < 2 ^ 32.
Proof. intros H. induction n as [|n IH]; [exact H|]. change (crc_bit (Nat.iter n crc_bit r) < 2 ^ 32). now apply crc_bit_lt. Qed.
Lemma iter_zero n r : r < 2 ^ 32 -> Nat.iter n crc_bit r = 0 -> r = 0.
Proof.
  intros Hr. induction n as [|n IH]; [auto|]. change (Nat.iter (S n) crc_bit r) with (crc_bit (Nat.iter n crc_bit r)). intros H. apply IH. apply crc_bit_zero; auto. now apply iter_lt.
Qed.

Lemma bits8_lxor a b : bits8 (N.lxor a b) = N.lxor (bits8 a) (bits8 b).
Proof. apply iter_lxor. Qed.
Lemma bits8_lt r : r < 2 ^ 32 -> bits8 r < 2 ^ 32.
Proof. apply iter_lt. Qed.
Lemma bits8_zero r : r < 2 ^ 32 -> bits8 r = 0 -> r = 0.
Proof. apply iter_zero. Qed.

(** A register whose low bits are zero is only shifted. *)
Lemma crc_bit_shiftl x k : crc_bit (N.shiftl x (N.succ k)) = N.shiftl x k.
Proof.
  rewrite crc_bit_alt. rewrite N.shiftl_spec_low by lia. rewrite N.lxor_0_r. apply N.bits_inj. intros n. rewrite N.shiftr_spec by lia.
  destruct (N.lt_ge_cases n k) as [H|H].
  - rewrite !N.shiftl_spec_low by lia. reflexivity.
  - rewrite !N.shiftl_spec_high by lia. f_equal. lia.
Qed.
Lemma bits8_shiftl x : bits8 (N.shiftl x 8) = x.
Proof.
  unfold bits8. cbn [Nat.iter nat_rect].
  change 8 with (N.succ 7) at 1. rewrite crc_bit_shiftl. change 7 with (N.succ 6) at 1. rewrite crc_bit_shiftl. change 6 with (N.succ 5) at 1. rewrite crc_bit_shiftl.
  change 5 with (N.succ 4) at 1. rewrite crc_bit_shiftl. change 4 with (N.succ 3) at 1. rewrite crc_bit_shiftl. change 3 with (N.succ 2) at 1. rewrite crc_bit_shiftl.
  change 2 with (N.succ 1) at 1. rewrite crc_bit_shiftl. change 1 with (N.succ 0) at 1. rewrite crc_bit_shiftl. apply N.shiftl_0_r.
Qed.

(** ** The table *)
Definition table_ok : bool := forallb (fun k => nth k crc_table 0 =? bits8 (N.of_nat k)) (seq 0 256).
Lemma table_all : table_ok = true.
Proof. vm_compute. reflexivity. Qed.

Lemma table_entry x : x < 256 -> nth (N.to_nat x) crc_table 0 = bits8 x.
Proof.
  intros H. pose proof table_all as T. unfold table_ok in T. rewrite forallb_forall in T. specialize (T (N.to_nat x)). rewrite N2Nat.id in T. apply N.eqb_eq, T. apply in_seq. split; [lia|].
  change (0 + 256)%nat with (N.to_nat 256). lia.
Qed.

Lemma byte_lt b : N_of_ascii b < 2 ^ 8.
Proof. apply N_ascii_bounded. Qed.

Lemma split_low r : r = N.lxor (N.land r 0xff) (N.shiftl (N.shiftr r 8) 8).
Proof.
  apply N.bits_inj. intros n. rewrite N.lxor_spec, N.land_spec. change 0xff with (N.ones 8). destruct (N.lt_ge_cases n 8) as [H|H].
  - rewrite N.ones_spec_low, N.shiftl_spec_low by lia. now rewrite andb_true_r, xorb_false_r.
  - rewrite N.ones_spec_high, N.shiftl_spec_high, N.shiftr_spec by lia. rewrite andb_false_r, xorb_false_l. f_equal. lia.
Qed.

Lemma crc_byte_octet r b : crc_byte r b = crc_octet r b.
Proof.
  unfold crc_byte, crc_octet. fold (bits8 (N.lxor r (N_of_ascii b))).
  assert (L : N.land r 0xff < 2 ^ 8).
  { apply lt_bits. intros m Hm. rewrite N.land_spec. change 0xff with (N.ones 8). rewrite N.ones_spec_high by lia. apply andb_false_r. }
  rewrite table_entry by (apply (lxor_lt _ _ 8); [apply byte_lt|exact L]).
  rewrite (split_low r) at 3. rewrite <- (bits8_shiftl (N.shiftr r 8)) at 1. rewrite <- bits8_lxor. f_equal.
  rewrite (N.lxor_comm (N_of_ascii b) (N.land r 255)), !N.lxor_assoc. f_equal. apply N.lxor_comm.
Qed.

Lemma fold_same s : forall r, fold_left crc_byte s r = fold_left crc_octet s r.
Proof. induction s as [|b s IH]; intros r; cbn; auto. rewrite IH. f_equal. apply crc_byte_octet. Qed.

Theorem crc_is_standard s : crc32_str s = crc32 s.
Proof. unfold crc32_str, compute, crc32. rewrite N.lxor_0_l. now rewrite fold_same. Qed.

Theorem crc_continues a b crc : compute (a ++ b) crc = compute b (compute a crc).
Proof.
  unfold compute. rewrite fold_left_app. f_equal. f_equal. rewrite N.lxor_assoc, N.lxor_nilpotent, N.lxor_0_r. reflexivity.
Qed.

Lemma crc_octet_lt r b : r < 2 ^ 32 -> crc_octet r b < 2 ^ 32.
Proof. intros H. apply bits8_lt. apply lxor_lt; auto. eapply N.lt_trans; [apply byte_lt|reflexivity]. Qed.
Lemma fold_lt s : forall r, r < 2 ^ 32 -> fold_left crc_octet s r < 2 ^ 32.
Proof. induction s as [|b s IH]; intros r H; cbn; auto. apply IH. now apply crc_octet_lt. Qed.

Theorem crc_fits s : crc32_str s < 0x100000000.
Proof. rewrite crc_is_standard. unfold crc32. apply (lxor_lt _ _ 32); [now apply fold_lt|reflexivity]. Qed.

(** ** Different strings with different checksums *)
Lemma lxor_inj_l a b c : N.lxor c a = N.lxor c b -> a = b.
Proof. intros H. apply (f_equal (N.lxor c)) in H. now rewrite <- !N.lxor_assoc, N.lxor_nilpotent, !N.lxor_0_l in H. Qed.

Lemma bits8_inj a b : a < 2 ^ 32 -> b < 2 ^ 32 -> bits8 a = bits8 b -> a = b.
Proof.
  intros Ha Hb H. apply N.lxor_eq. apply bits8_zero; [now apply lxor_lt|]. rewrite bits8_lxor, H. apply N.lxor_nilpotent.
Qed.

(** The same bytes keep different registers different. *)
Lemma fold_inj s : forall r r', r < 2 ^ 32 -> r' < 2 ^ 32 -> fold_left crc_octet s r = fold_left crc_octet s r' -> r = r'.
Proof.
  induction s as [|b s IH]; intros r r' Hr Hr' H; [exact H|]. cbn in H. apply IH in H; try (now apply crc_octet_lt).
  assert (HB : N_of_ascii b < 2 ^ 32) by (eapply N.lt_trans; [apply byte_lt|reflexivity]).
  apply bits8_inj in H; try (now apply lxor_lt). rewrite (N.lxor_comm r), (N.lxor_comm r') in H. now apply lxor_inj_l in H.
Qed.

(** Up to four bytes are added to the register as one word. *)
Fixpoint word (s : list ascii) : N := match s with [] => 0 | b :: s' => N.lxor (N_of_ascii b) (N.shiftl (word s') 8) end.

Lemma word_lt s : word s < 2 ^ (8 * N.of_nat (length s)).
Proof.
  induction s as [|b s IH]; [reflexivity|]. cbn [word length]. apply lxor_lt.
  - eapply N.lt_le_trans; [apply byte_lt|]. apply N.pow_le_mono_r; lia.
  - rewrite N.shiftl_mul_pow2. replace (8 * N.of_nat (S (length s))) with (8 * N.of_nat (length s) + 8) by lia. rewrite N.pow_add_r. apply N.mul_lt_mono_pos_r; [reflexivity|exact IH].
Qed.

Lemma fold_word s : forall r, fold_left crc_octet s r = Nat.iter (8 * length s) crc_bit (N.lxor r (word s)).
Proof.
  induction s as [|b s IH]; intros r; cbn [fold_left word length].
  - cbn. now rewrite N.lxor_0_r.
  - rewrite IH. replace (8 * S (length s))%nat with (8 * length s + 8)%nat by lia.
    assert (IA : forall m n x, Nat.iter (m + n) crc_bit x = Nat.iter m crc_bit (Nat.iter n crc_bit x)) by (induction m as [|m IHm]; intros n x; [reflexivity|]; change (S m + n)%nat with (S (m + n)); rewrite !iter_S; now rewrite IHm).
    rewrite IA. f_equal. change (Nat.iter 8 crc_bit (N.lxor r (N.lxor (N_of_ascii b) (N.shiftl (word s) 8)))) with (bits8 (N.lxor r (N.lxor (N_of_ascii b) (N.shiftl (word s) 8)))).
    rewrite <- N.lxor_assoc, bits8_lxor, bits8_shiftl. reflexivity.
Qed.

Lemma word_inj : forall s t, length s = length t -> word s = word t -> s = t.
Proof.
  induction s as [|b s IH]; intros [|c t] HL H; try discriminate; auto. cbn in H.
  assert (E : forall x y n, n < 8 -> N.testbit (N.lxor (N_of_ascii x) (N.shiftl y 8)) n = N.testbit (N_of_ascii x) n)
    by (intros x y n Hn; rewrite N.lxor_spec, N.shiftl_spec_low by lia; apply xorb_false_r).
  assert (EB : N_of_ascii b = N_of_ascii c).
  { apply N.bits_inj. intros n. destruct (N.lt_ge_cases n 8) as [Hn|Hn].
    - rewrite <- (E b (word s)), <- (E c (word t)) by auto. now rewrite H.
    - pose proof (byte_lt b) as B1. pose proof (byte_lt c) as B2. rewrite lt_bits in B1, B2. now rewrite B1, B2. }
  rewrite EB in H. apply lxor_inj_l in H. apply (f_equal (fun x => N.shiftr x 8)) in H. rewrite !N.shiftr_shiftl_l, !N.sub_diag, !N.shiftl_0_r in H by lia.
  f_equal; [|apply IH; cbn in HL; auto; lia]. rewrite <- (ascii_N_embedding b), <- (ascii_N_embedding c). now rewrite EB.
Qed.

(** Strings of the same length that differ only within four consecutive bytes. *)
Theorem crc_burst pre s t post : length s = length t -> (length s <= 4)%nat -> s <> t -> crc32_str (pre ++ s ++ post) <> crc32_str (pre ++ t ++ post).
Proof.
  intros HL H4 HN H. apply HN. rewrite !crc_is_standard in H. unfold crc32 in H. rewrite (N.lxor_comm _ 0xffffffff), (N.lxor_comm (fold_left _ (pre ++ t ++ post) _)) in H. apply lxor_inj_l in H.
  rewrite !fold_left_app in H. set (r := fold_left crc_octet pre 0xffffffff) in *. assert (Hr : r < 2 ^ 32) by (apply fold_lt; reflexivity).
  apply fold_inj in H; try (now apply fold_lt). rewrite !fold_word, HL in H. rewrite !iter_lxor in H.
  apply lxor_inj_l in H. assert (Hs : word s < 2 ^ 32) by (eapply N.lt_le_trans; [apply word_lt|apply N.pow_le_mono_r; lia]).
  assert (Ht : word t < 2 ^ 32) by (eapply N.lt_le_trans; [apply word_lt|apply N.pow_le_mono_r; lia]).
  apply word_inj; auto. apply N.lxor_eq. apply (iter_zero (8 * length t)); [now apply lxor_lt|]. rewrite iter_lxor, H. apply N.lxor_nilpotent.
Qed.

(** ** Identifiers *)
Theorem lines_distinct file l1 l2 : l1 < 0x100000000 -> l2 < 0x100000000 -> l1 <> l2 -> id_of_line file l1 <> id_of_line file l2.
Proof.
  unfold id_of_line. intros H1 H2 Hn H. pose proof (crc_fits file) as HF. set (c := crc32_str file) in *. set (w := 0x100000000) in *.
  assert (Hw : w <> 0) by discriminate. pose proof (N.div_mod (c + l1) w Hw) as D1. pose proof (N.div_mod (c + l2) w Hw) as D2.
  assert (Q1 : (c + l1) / w < 2) by (apply N.div_lt_upper_bound; lia). assert (Q2 : (c + l2) / w < 2) by (apply N.div_lt_upper_bound; lia).
  assert (Hq : (c + l1) / w = 0 \/ (c + l1) / w = 1) by lia. assert (Hq2 : (c + l2) / w = 0 \/ (c + l2) / w = 1) by lia.
  apply Hn. destruct Hq as [Hq|Hq], Hq2 as [Hq2|Hq2]; rewrite Hq in D1; rewrite Hq2 in D2; lia.
Qed.

Lemma name_id_crc file n1 n2 : id_of_name file n1 = id_of_name file n2 <-> crc32_str n1 = crc32_str n2.
Proof.
  split; intros H; [|unfold id_of_name; now rewrite H].
  destruct (N.eq_dec (crc32_str n1) (crc32_str n2)) as [E|E]; auto. exfalso. apply (lines_distinct file _ _ (crc_fits n1) (crc_fits n2) E). exact H.
Qed.

Theorem names_distinct file pre s t post : length s = length t -> (length s <= 4)%nat -> s <> t -> id_of_name file (pre ++ s ++ post) <> id_of_name file (pre ++ t ++ post).
Proof. intros H1 H2 H3 H. apply name_id_crc in H. now apply crc_burst in H. Qed.

Definition str := list_ascii_of_string.
Arguments str _%string.

Theorem names_collide : forall file, str "testdraw_check" <> str "workmakestate" /\ id_of_name file (str "testdraw_check") = id_of_name file (str "workmakestate").
Proof. intros file. split; [discriminate|]. apply name_id_crc. vm_compute. reflexivity. Qed.
Theorem line_name_collide : forall file, id_of_line file 4540 = id_of_name file (str "clearpointmap").
Proof. intros file. unfold id_of_line, id_of_name. replace (crc32_str (str "clearpointmap")) with 4540; [reflexivity|vm_compute; reflexivity]. Qed.
Theorem files_collide : str "src/open_save.cpp" <> str "src/exec/move.cpp" /\ id_of_line (str "src/open_save.cpp") 19 = id_of_line (str "src/exec/move.cpp") 10.
Proof. split; [discriminate|]. vm_compute. reflexivity. Qed.

(** ** Concrete cases *)
Example crc_check_value : crc32_str (str "123456789") = 0xcbf43926.
Proof. vm_compute. reflexivity. Qed.
Example crc_continue_case : compute (str "789") (compute (str "123456") 0) = 0xcbf43926.
Proof. vm_compute. reflexivity. Qed.
Example names_distinct_case : id_of_name (str "a.cpp") (str "step_one_x") <> id_of_name (str "a.cpp") (str "step_two_x").
Proof. apply (names_distinct (str "a.cpp") (str "step_") (str "one") (str "two") (str "_x")); [reflexivity|cbn; lia|discriminate]. Qed.
