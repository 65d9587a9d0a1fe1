From Coq Require Import String List Arith NArith ZArith Ascii Bool Lia.
Import ListNotations.
From Verif Require Import Json_model Json_proofs Str_model.
Local Open Scope nat_scope.
Local Notation length := List.length.

Lemma starts_app p s : starts p (p ++ s) = true.
Proof. induction p as [|c p IH]; [reflexivity|]. cbn. rewrite Ascii.eqb_refl. exact IH. Qed.
Lemma find_at_skip c p s r i : ~ In c s -> find_at (c :: p) (s ++ r) i = find_at (c :: p) r (i + length s).
Proof.
  revert i. induction s as [|a s IH]; intros i H; [cbn; f_equal; lia|]. cbn [app find_at starts].
  replace (Ascii.eqb c a) with false by (symmetry; apply Ascii.eqb_neq; intros ->; apply H; left; reflexivity). cbn [andb].
  rewrite IH by (intro G; apply H; right; exact G). cbn [length]. f_equal. lia.
Qed.
Lemma find_at_hit p s i : s <> [] -> starts p s = true -> find_at p s i = Some i.
Proof. intros Hs H. destruct s as [|a s]; [congruence|]. cbn [find_at]. rewrite H. reflexivity. Qed.
Lemma find_at_none c p s i : ~ In c s -> find_at (c :: p) s i = None.
Proof. intro H. rewrite <- (app_nil_r s). rewrite find_at_skip by exact H. reflexivity. Qed.

(** [find] from the end of [a]: the first [c] behind it. *)
Lemma find_app c p a b d : ~ In c b -> find_from (c :: p) (a ++ b ++ (c :: p) ++ d) (length a) = Some (length a + length b).
Proof.
  intro H. unfold find_from. rewrite !app_length. replace (_ <? length a) with false by (symmetry; apply Nat.ltb_ge; lia).
  rewrite skipn_app, skipn_all, Nat.sub_diag. cbn [app skipn]. rewrite find_at_skip by exact H. apply find_at_hit; [discriminate|].
  change (c :: p ++ d) with ((c :: p) ++ d). apply starts_app.
Qed.
Lemma find_app_none c p a b : ~ In c b -> find_from (c :: p) (a ++ b) (length a) = None.
Proof.
  intro H. unfold find_from. rewrite app_length. replace (_ <? length a) with false by (symmetry; apply Nat.ltb_ge; lia).
  rewrite skipn_app, skipn_all, Nat.sub_diag. apply find_at_none. exact H.
Qed.
Lemma find_at_bound p s i k : find_at p s i = Some k -> i <= k <= i + length s.
Proof.
  revert i. induction s as [|a s IH]; intros i H; cbn [find_at] in H.
  - destruct p; [|discriminate]. injection H as <-. cbn. lia.
  - destruct (starts p (a :: s)); [injection H as <-; cbn; lia|]. apply IH in H. cbn. lia.
Qed.
Lemma find_at_strict c p s i k : find_at (c :: p) s i = Some k -> i <= k < i + length s.
Proof.
  revert i. induction s as [|a s IH]; intros i H; cbn [find_at] in H; [discriminate|].
  destruct (starts (c :: p) (a :: s)); [injection H as <-; cbn; lia|]. apply IH in H. cbn. lia.
Qed.
Lemma find_bound c p s from k : find_from (c :: p) s from = Some k -> from <= k < length s.
Proof.
  unfold find_from. destruct (Nat.ltb_spec (length s) from); [discriminate|]. intro G. apply find_at_strict in G. rewrite skipn_length in G. lia.
Qed.
Lemma rfind_app c a b : ~ In c b -> rfind_char c (a ++ c :: b) = Some (length a).
Proof.
  intro H. assert (N : rfind_char c b = None).
  { induction b as [|x b IH]; [reflexivity|]. cbn. rewrite IH by (intro G; apply H; right; exact G).
    replace (Ascii.eqb x c) with false; [reflexivity|]. symmetry. apply Ascii.eqb_neq. intros ->. apply H. left. reflexivity. }
  induction a as [|x a IH]; cbn [app rfind_char]; [rewrite N, Ascii.eqb_refl; reflexivity|]. rewrite IH. reflexivity.
Qed.
Lemma rfind_none c s : ~ In c s -> rfind_char c s = None.
Proof.
  induction s as [|a s IH]; intro H; [reflexivity|]. cbn. rewrite IH by (intro G; apply H; right; exact G).
  replace (Ascii.eqb a c) with false; [reflexivity|]. symmetry. apply Ascii.eqb_neq. intros ->. apply H. left. reflexivity.
Qed.
Lemma rfind_bound c s k : rfind_char c s = Some k -> k < length s.
Proof.
  revert k. induction s as [|a s IH]; intros k H; cbn in H; [discriminate|]. destruct (rfind_char c s) as [n|].
  - injection H as <-. specialize (IH n eq_refl). cbn. lia.
  - destruct (Ascii.eqb a c); [injection H as <-; cbn; lia|discriminate].
Qed.
Lemma substr_mid a b d : substr (a ++ b ++ d) (length a) (Some (length b)) = Some b.
Proof.
  unfold substr. rewrite !app_length. replace (_ <? length a) with false by (symmetry; apply Nat.ltb_ge; lia).
  rewrite skipn_app, skipn_all, Nat.sub_diag. cbn [app skipn]. rewrite firstn_app, firstn_all, Nat.sub_diag. cbn. rewrite app_nil_r. reflexivity.
Qed.
Lemma substr_end a b : substr (a ++ b) (length a) None = Some b.
Proof.
  unfold substr. rewrite app_length. replace (_ <? length a) with false by (symmetry; apply Nat.ltb_ge; lia).
  rewrite skipn_app, skipn_all, Nat.sub_diag. reflexivity.
Qed.
Lemma substr_ok s p n : p <= length s -> exists t, substr s p n = Some t.
Proof. intro H. unfold substr. replace (_ <? p) with false by (symmetry; apply Nat.ltb_ge; lia). eauto. Qed.

(** Numbers *)
Lemma digit_is c : is_digit c = true -> digit c = Some (code c - 48)%N.
Proof. intro H. unfold digit. unfold is_digit, between in H. unfold code in *. rewrite H. reflexivity. Qed.
Lemma digit_not c : is_digit c = false -> digit c = None.
Proof. intro H. unfold digit. unfold is_digit, between in H. unfold code in *. rewrite H. reflexivity. Qed.
Lemma digits_app ds r acc : forallb is_digit ds = true -> match r with c :: _ => is_digit c = false | [] => True end ->
  digits (ds ++ r) acc = fold_left (fun a c => (10 * a + (code c - 48))%N) ds acc.
Proof.
  revert acc. induction ds as [|c ds IH]; intros acc H Hr; cbn [forallb] in H.
  - destruct r as [|c r]; [reflexivity|]. cbn [app digits fold_left]. rewrite (digit_not c Hr). reflexivity.
  - apply andb_true_iff in H as [H1 H2]. cbn [app digits fold_left]. rewrite (digit_is c H1). apply IH; assumption.
Qed.
Lemma dump_nat_digits n : forallb is_digit (dump_nat n) = true.
Proof. unfold dump_nat. apply uint_is_digit. Qed.
Lemma dump_nat_value n : digits_value (dump_nat n) = n.
Proof. unfold dump_nat. rewrite uint_value, DecimalN.Unsigned.of_to. reflexivity. Qed.
Lemma magnitude_dump n r : match r with c :: _ => is_digit c = false | [] => True end -> magnitude (dump_nat n ++ r) = Some n.
Proof.
  intro Hr. pose proof (digits_app (dump_nat n) r 0 (dump_nat_digits n) Hr) as G. change (fold_left _ (dump_nat n) 0%N) with (digits_value (dump_nat n)) in G.
  rewrite dump_nat_value in G. destruct (dump_nat_head n) as (c & t & E & Hc). rewrite E in *. cbn [app] in *. unfold magnitude. rewrite (digit_is c Hc).
  f_equal. exact G.
Qed.
Lemma digit_code c : is_digit c = true -> (48 <= code c <= 57)%N.
Proof. unfold is_digit, between. intro H. apply andb_true_iff in H as [H1 H2]. apply N.leb_le in H1, H2. lia. Qed.
Lemma digit_not_space c : is_digit c = true -> is_space c = false.
Proof. intro H. apply digit_code in H. unfold is_space, code in *. apply orb_false_iff. split; [apply N.eqb_neq; lia|]. apply andb_false_iff. right. apply N.leb_gt. lia. Qed.
Lemma digit_not_char c d : is_digit c = true -> is_digit d = false -> Ascii.eqb c d = false.
Proof. intros H1 H2. apply Ascii.eqb_neq. intros ->. congruence. Qed.
(** No zero characters. *)
Definition plain (s : str) : Prop := ~ In (ascii_of_N 0) s.
Lemma c_str_plain s r : plain s -> c_str (s ++ r) = s ++ c_str r.
Proof.
  unfold plain. induction s as [|c s IH]; intro H; [reflexivity|]. cbn [app c_str].
  replace (N_of_ascii c =? 0)%N with false.
  - rewrite IH by (intro G; apply H; right; exact G). reflexivity.
  - symmetry. apply N.eqb_neq. intro E. apply H. left. rewrite <- (ascii_N_embedding c), E. reflexivity.
Qed.
Lemma digits_plain s : forallb is_digit s = true -> plain s.
Proof. intros H G. rewrite forallb_forall in H. apply H in G. discriminate. Qed.
Lemma dump_int_plain z : plain (dump_int z).
Proof.
  rewrite dump_int_text. unfold plain. intro H. apply in_app_or in H as [H|H].
  - destruct (z <? 0)%Z; [destruct H as [H|[]]; discriminate|destruct H].
  - exact (digits_plain _ (dump_nat_digits _) H).
Qed.
Lemma c_str_head r : match r with c :: _ => is_digit c = false | [] => True end -> match c_str r with c :: _ => is_digit c = false | [] => True end.
Proof. destruct r as [|c r]; [auto|]. cbn [c_str]. destruct (N_of_ascii c =? 0)%N; auto. Qed.
Lemma read_number_int z r : match r with c :: _ => is_digit c = false | [] => True end ->
  read_number (dump_int z ++ r) = Some ((z <? 0)%Z, Z.abs_N z).
Proof.
  intro Hr. unfold read_number. rewrite (c_str_plain _ r (dump_int_plain z)). apply c_str_head in Hr. revert Hr. generalize (c_str r) as r'. clear r. intros r Hr.
  rewrite dump_int_text. destruct (z <? 0)%Z eqn:Ez; cbn [sign_text app].
  - change (sign (skip_spaces ("-"%char :: dump_nat (Z.abs_N z) ++ r))) with (true, dump_nat (Z.abs_N z) ++ r). cbn match. rewrite magnitude_dump by exact Hr. reflexivity.
  - destruct (dump_nat_head (Z.abs_N z)) as (c & t & E & Hc). pose proof (magnitude_dump (Z.abs_N z) r Hr) as G. rewrite E in *. cbn [app] in *.
    cbn [skip_spaces]. rewrite (digit_not_space c Hc). cbn [sign]. rewrite (digit_not_char c "-" Hc eq_refl), (digit_not_char c "+" Hc eq_refl).
    rewrite G. reflexivity.
Qed.
Lemma read_number_nat n r : match r with c :: _ => is_digit c = false | [] => True end -> read_number (dump_nat n ++ r) = Some (false, n).
Proof.
  intro Hr. pose proof (read_number_int (Z.of_N n) r Hr) as H. rewrite dump_int_text in H.
  replace (Z.of_N n <? 0)%Z with false in H by (symmetry; apply Z.ltb_ge; lia). rewrite Zabs2N.id in H. exact H.
Qed.
Lemma skip_read s r : forallb is_space s = true -> read_number (s ++ r) = read_number r.
Proof.
  intro H. unfold read_number. replace (skip_spaces (c_str (s ++ r))) with (skip_spaces (c_str r)); [reflexivity|].
  induction s as [|c s IH]; [reflexivity|]. cbn [forallb] in H. apply andb_true_iff in H as [H1 H2]. cbn [app c_str].
  replace (N_of_ascii c =? 0)%N with false.
  - cbn [skip_spaces]. rewrite H1. apply IH. exact H2.
  - symmetry. apply N.eqb_neq. intro E. unfold is_space in H1. rewrite E in H1. discriminate.
Qed.
Lemma stoull_int z r : match r with c :: _ => is_digit c = false | [] => True end -> (- Z.of_N two64 < z < Z.of_N two64)%Z ->
  stoull (dump_int z ++ r) = NValue (Z.to_N (z mod Z.of_N two64)).
Proof.
  intros Hr Hz. unfold stoull. rewrite read_number_int by exact Hr. assert (P : (0 < Z.of_N two64)%Z) by reflexivity.
  replace (two64 <=? Z.abs_N z)%N with false by (symmetry; apply N.leb_gt; lia). f_equal. destruct (Z.ltb_spec z 0).
  - rewrite <- (Z.mod_add z 1) by lia. rewrite Z.mod_small by lia. rewrite N.mod_small by lia. lia.
  - rewrite Z.mod_small by lia. lia.
Qed.
(** A plus sign changes nothing. *)
Lemma read_number_plus n : read_number ("+"%char :: dump_nat n) = Some (false, n).
Proof.
  pose proof (c_str_plain _ [] (dump_int_plain (Z.of_N n))) as C. rewrite dump_int_text in C. replace (Z.of_N n <? 0)%Z with false in C by (symmetry; apply Z.ltb_ge; lia).
  rewrite Zabs2N.id in C. cbn [sign_text app] in C. change (c_str []) with (@nil ascii) in C. rewrite app_nil_r in C.
  unfold read_number. change (c_str ("+"%char :: dump_nat n)) with ("+"%char :: c_str (dump_nat n)). rewrite C.
  change (sign (skip_spaces ("+"%char :: dump_nat n))) with (false, dump_nat n). cbn match. pose proof (magnitude_dump n [] I) as M. rewrite app_nil_r in M. rewrite M. reflexivity.
Qed.
