(** Whatever is read from text can be written again: strings are UTF-8, integers in range, keys ascending. *)
From Coq Require Import String List Arith NArith ZArith Ascii Bool Lia Sorting.Sorted.
Import ListNotations.
From Verif Require Import OMap_model OMap_proofs Json_model Json_spec Json_proofs.
Local Open Scope nat_scope.

(** ** UTF-8, sequence by sequence *)
Inductive U : bytes -> Prop :=
| U_nil : U []
| U_seq h s : h <> [] -> (forall x, utf8_head (h ++ x) = Some (h, x)) -> U s -> U (h ++ s).
Lemma utf8_U s : utf8 s = true <-> U s.
Proof.
  unfold utf8. split.
  - generalize (length s) as n. intro n. revert s. induction n as [|n IH]; intros [|c s] H; try constructor; [discriminate|].
    cbn [utf8_fuel] in H. destruct (utf8_head (c :: s)) as [[h s']|] eqn:E; [|discriminate].
    apply utf8_head_case in E as [-> [(c0 & -> & Hc)|(Hne & _ & Hx)]].
    + constructor; [discriminate| |auto]. intro x. cbn. rewrite Hc. reflexivity.
    + constructor; auto.
  - assert (G : U s -> forall n, length s <= n -> utf8_fuel n s = true).
    { induction 1 as [|h s Hne Hx Hs IH]; intros n Hn; [destruct n; reflexivity|].
      destruct h as [|c h]; [congruence|]. cbn [app length] in *. destruct n as [|n]; [lia|].
      cbn [utf8_fuel]. rewrite (Hx s). apply IH. rewrite app_length in Hn. lia. }
    intro H. apply G; auto.
Qed.
Lemma U_app a b : U a -> U b -> U (a ++ b).
Proof. induction 1 as [|h s Hne Hx Hs IH]; intro Hb; [exact Hb|]. rewrite <- app_assoc. constructor; auto. Qed.
Lemma U_head h : h <> [] -> (forall x, utf8_head (h ++ x) = Some (h, x)) -> U h.
Proof. intros. rewrite <- (app_nil_r h). constructor; auto. constructor. Qed.
Lemma U_ascii c : between 0 127 c = true -> U [c].
Proof. intro H. apply U_head; [discriminate|]. intro x. cbn. rewrite H. reflexivity. Qed.

Lemma code_ch n : (n < 256)%N -> code (ch n) = n.
Proof. apply N_ascii_embedding. Qed.
Lemma between_ch lo hi n : (n < 256)%N -> between lo hi (ch n) = ((lo <=? n)%N && (n <=? hi)%N).
Proof. intro H. unfold between. rewrite code_ch by exact H. reflexivity. Qed.
Lemma in_range lo hi n : (lo <= n <= hi)%N -> ((lo <=? n)%N && (n <=? hi)%N) = true.
Proof. intros [H1 H2]. rewrite (proj2 (N.leb_le _ _) H1), (proj2 (N.leb_le _ _) H2). reflexivity. Qed.
Lemma out_range lo hi n : (n < lo \/ hi < n)%N -> ((lo <=? n)%N && (n <=? hi)%N) = false.
Proof. intros [H|H]; apply N.leb_gt in H; rewrite H; [reflexivity|apply andb_false_r]. Qed.

Lemma bin lo hi n : (n < 256 /\ lo <= n <= hi)%N -> between lo hi (ch n) = true.
Proof. intros [H1 H2]. rewrite between_ch by exact H1. apply in_range. exact H2. Qed.
Lemma bout lo hi n : (n < 256 /\ (n < lo \/ hi < n))%N -> between lo hi (ch n) = false.
Proof. intros [H1 H2]. rewrite between_ch by exact H1. apply out_range. exact H2. Qed.

(** UTF-8 of any code point that is not a surrogate. *)
Lemma head2 a b x : between 0 127 a = false -> between 194 223 a = true -> cont b = true -> utf8_head ([a; b] ++ x) = Some ([a; b], x).
Proof. intros A B C. cbn [app utf8_head]. rewrite A, B, C. reflexivity. Qed.
Lemma head3 a b c x : between 0 127 a = false -> between 194 223 a = false -> cont c = true ->
  ((between 224 224 a && between 160 191 b) || (between 225 236 a && cont b) || (between 237 237 a && between 128 159 b)
                            || (between 238 239 a && cont b)) = true -> utf8_head ([a; b; c] ++ x) = Some ([a; b; c], x).
Proof. intros A B C D. cbn [app utf8_head]. rewrite A, B, C, D. reflexivity. Qed.
Lemma head4 a b c d x : between 0 127 a = false -> between 194 223 a = false -> between 224 239 a = false -> cont c = true -> cont d = true ->
  ((between 240 240 a && between 144 191 b) || (between 241 243 a && cont b) || (between 244 244 a && between 128 143 b)) = true ->
  utf8_head ([a; b; c; d] ++ x) = Some ([a; b; c; d], x).
Proof.
  intros A B C D E G. cbn [app utf8_head]. rewrite A, B, D, E, G. cbn [andb].
  assert (K : forall lo hi, (224 <= lo)%N -> (hi <= 239)%N -> between lo hi a = false).
  { intros lo hi H1 H2. unfold between in *. apply andb_false_iff in C. rewrite !N.leb_gt in C. apply out_range. lia. }
  rewrite (K 224 224)%N, (K 225 236)%N, (K 237 237)%N, (K 238 239)%N by lia. reflexivity.
Qed.
Lemma encode_head n x : (n < 55296 \/ 57343 < n < 1114112)%N -> utf8_head (encode n ++ x) = Some (encode n, x).
Proof.
  intro H. unfold encode.
  pose proof (N.div_mod' n 64) as D1. pose proof (N.mod_lt n 64 ltac:(lia)) as M1.
  pose proof (N.div_mod' (n / 64) 64) as D2. pose proof (N.mod_lt (n / 64) 64 ltac:(lia)) as M2. rewrite N.div_div in D2 by lia. change (64 * 64)%N with 4096%N in D2.
  pose proof (N.div_mod' (n / 4096) 64) as D3. pose proof (N.mod_lt (n / 4096) 64 ltac:(lia)) as M3. rewrite N.div_div in D3 by lia. change (4096 * 64)%N with 262144%N in D3.
  remember (n mod 64)%N as r1 eqn:X1; remember ((n / 64) mod 64)%N as r2 eqn:X2; remember ((n / 4096) mod 64)%N as r3 eqn:X3.
  remember (n / 64)%N as q1 eqn:X4; remember (n / 4096)%N as q2 eqn:X5; remember (n / 262144)%N as q3 eqn:X6. clear X1 X2 X3 X4 X5 X6.
  destruct (N.ltb_spec n 128).
  { cbn [app utf8_head]. rewrite bin by lia. reflexivity. }
  destruct (N.ltb_spec n 2048).
  { apply head2; unfold cont; [apply bout; lia|apply bin; lia|apply bin; lia]. }
  destruct (N.ltb_spec n 65536).
  { apply head3; unfold cont; [apply bout; lia|apply bout; lia|apply bin; lia|].
    assert (C : (n < 4096 \/ 4096 <= n < 53248 \/ 53248 <= n < 55296 \/ 57344 <= n)%N) by lia.
    rewrite (bin 128 191 (128 + r2)) by lia.
    destruct C as [C|[C|[C|C]]].
    - rewrite (bin 224 224), (bin 160 191) by lia. reflexivity.
    - rewrite (bin 225 236) by lia. cbn [andb]. rewrite !orb_true_r. reflexivity.
    - rewrite (bin 237 237), (bin 128 159) by lia. cbn [andb]. rewrite !orb_true_r. reflexivity.
    - rewrite (bin 238 239) by lia. cbn [andb]. rewrite !orb_true_r. reflexivity. }
  apply head4; unfold cont; [apply bout; lia|apply bout; lia|apply bout; lia|apply bin; lia|apply bin; lia|].
  rewrite (bin 128 191 (128 + r3)) by lia.
  assert (C : (n < 262144 \/ 262144 <= n < 1048576 \/ 1048576 <= n)%N) by lia.
  destruct C as [C|[C|C]].
  - rewrite (bin 240 240), (bin 144 191) by lia. reflexivity.
  - rewrite (bin 241 243) by lia. cbn [andb]. rewrite !orb_true_r. reflexivity.
  - rewrite (bin 244 244), (bin 128 143) by lia. cbn [andb]. rewrite !orb_true_r. reflexivity.
Qed.
Lemma encode_U n : (n < 55296 \/ 57343 < n < 1114112)%N -> U (encode n).
Proof.
  intro H. apply U_head; [|intro x; now apply encode_head]. unfold encode. repeat destruct (_ <? _)%N; discriminate.
Qed.

Lemma between_range lo hi c : between lo hi c = true -> (lo <= code c <= hi)%N.
Proof. unfold between. intro H. apply andb_true_iff in H as [A B]. apply N.leb_le in A, B. lia. Qed.
Lemma hexval_bound c v : hexval c = Some v -> (v < 16)%N.
Proof.
  unfold hexval. destruct (between 48 57 c) eqn:E1.
  { intro H. injection H as <-. apply between_range in E1. lia. }
  destruct (between 65 70 c) eqn:E2.
  { intro H. injection H as <-. apply between_range in E2. lia. }
  destruct (between 97 102 c) eqn:E3; [|discriminate].
  intro H. injection H as <-. apply between_range in E3. lia.
Qed.
Lemma hex4_bound s u r : hex4 s = Some (u, r) -> (u < 65536)%N.
Proof.
  destruct s as [|a [|b [|c [|d s]]]]; cbn [hex4]; try discriminate.
  destruct (hexval a) as [x|] eqn:Ea; [|discriminate]. destruct (hexval b) as [y|] eqn:Eb; [|discriminate].
  destruct (hexval c) as [z|] eqn:Ec; [|discriminate]. destruct (hexval d) as [w|] eqn:Ed; [|discriminate].
  intro H. assert (E : (u = 4096 * x + 256 * y + 16 * z + w)%N) by congruence. apply hexval_bound in Ea, Eb, Ec, Ed. lia.
Qed.
Lemma unescape_U s t r : unescape s = Some (t, r) -> U t.
Proof.
  destruct s as [|c s]; cbn [unescape]; [discriminate|]. cbn zeta.
  destruct ((code c =? 34) || (code c =? 92) || (code c =? 47))%N eqn:E.
  { intro H. injection H as <- <-. apply U_ascii. unfold between. apply in_range.
    repeat (apply orb_true_iff in E as [E|E]); apply N.eqb_eq in E; lia. }
  destruct (code c =? 98)%N; [intro H; injection H as <- <-; apply U_ascii; reflexivity|].
  destruct (code c =? 102)%N; [intro H; injection H as <- <-; apply U_ascii; reflexivity|].
  destruct (code c =? 110)%N; [intro H; injection H as <- <-; apply U_ascii; reflexivity|].
  destruct (code c =? 114)%N; [intro H; injection H as <- <-; apply U_ascii; reflexivity|].
  destruct (code c =? 116)%N; [intro H; injection H as <- <-; apply U_ascii; reflexivity|].
  destruct (code c =? 117)%N; [|discriminate].
  destruct (hex4 s) as [[u r0]|] eqn:Eh; [|discriminate]. apply hex4_bound in Eh.
  destruct ((55296 <=? u) && (u <=? 56319))%N eqn:Es.
  - destruct r0 as [|b [|v r1]]; try discriminate. destruct ((code b =? 92) && (code v =? 117))%N; [|discriminate].
    destruct (hex4 r1) as [[w r2]|] eqn:Ew; [|discriminate]. apply hex4_bound in Ew.
    destruct ((56320 <=? w) && (w <=? 57343))%N eqn:Ef; [|discriminate]. intro H.
    assert (Et : t = encode (65536 + (u - 55296) * 1024 + (w - 56320))%N) by congruence. rewrite Et. clear H Et.
    apply andb_true_iff in Es as [S1 S2]. apply andb_true_iff in Ef as [F1 F2]. apply N.leb_le in S1, S2, F1, F2.
    apply encode_U. lia.
  - destruct ((56320 <=? u) && (u <=? 57343))%N eqn:Ef; [discriminate|]. intro H. assert (Et : t = encode u) by congruence. rewrite Et. clear H Et.
    apply encode_U. apply andb_false_iff in Es, Ef. rewrite !N.leb_gt in Es, Ef. lia.
Qed.
Lemma read_str_U n s t r : read_str n s = Some (t, r) -> U t.
Proof.
  revert s t r. induction n as [|n IH]; intros s t r; cbn [read_str]; [discriminate|].
  destruct s as [|c s]; [discriminate|]. destruct (code c =? 34)%N; [intro H; injection H as <- <-; constructor|].
  destruct (if (code c =? 92)%N then unescape s else if (code c <? 32)%N then None else utf8_head (c :: s)) as [[h r0]|] eqn:E; [|discriminate].
  destruct (read_str n r0) as [[t' r']|] eqn:Er; [|discriminate]. intro H. injection H as <- <-.
  apply U_app; [|eapply IH; exact Er]. clear Er IH.
  destruct (code c =? 92)%N; [eapply unescape_U; exact E|]. destruct (code c <? 32)%N; [discriminate|].
  apply utf8_head_case in E as [_ [(c0 & -> & Hc)|(Hne & _ & Hx)]]; [apply U_ascii; exact Hc|apply U_head; assumption].
Qed.

Section Read.
Context {F : Type} (fw : F -> bytes) (fr : bytes -> option F).
(** Every number that is read can be written and read back. *)
Hypothesis Hfloat : forall t f, fr t = Some f -> float_ok fw fr f.
Notation wf := (wf fw fr).

Lemma number_wf neg ds more j : number fr neg ds more = Some j -> wf j.
Proof.
  assert (G : forall t, read_float fr t = Some j -> wf j).
  { intro t. unfold read_float. destruct (fr t) as [f|] eqn:E; [|discriminate]. intro H. injection H as <-. constructor. eapply Hfloat. exact E. }
  unfold number. destruct more as [|x more]; [|apply G]. cbn zeta. destruct neg.
  - destruct (N.leb_spec (digits_value ds) 9223372036854775808); [|apply G]. intro H0. injection H0 as <-. constructor. unfold int_range. lia.
  - destruct (N.leb_spec (digits_value ds) 18446744073709551615); [|apply G]. intro H0. injection H0 as <-. constructor. unfold int_range. lia.
Qed.
Lemma read_wf n :
  (forall s j r, read_value fr n s = Some (j, r) -> wf j)
  /\ (forall s l r, read_items fr n s = Some (l, r) -> Forall wf l)
  /\ (forall m s m' r, ascending m -> Forall (fun kv => utf8 (fst kv) = true /\ wf (snd kv)) m ->
        read_members fr n m s = Some (m', r) -> ascending m' /\ Forall (fun kv => utf8 (fst kv) = true /\ wf (snd kv)) m').
Proof.
  induction n as [|n (IHv & IHi & IHm)]; [repeat split; intros; discriminate|]. split; [|split].
  - intros s j r. rewrite read_value_S. destruct (skip_ws s) as [|c t]; [discriminate|]. cbn zeta.
    destruct (code c =? 91)%N.
    { destruct (skip_ws t) as [|c' r']; [discriminate|]. destruct (code c' =? 93)%N; [intro H; injection H as <- <-; constructor; constructor|].
      destruct (read_value fr n t) as [[v r1]|] eqn:Ev; [|discriminate]. destruct (read_items fr n r1) as [[l r2]|] eqn:Ei; [|discriminate].
      intro H. injection H as <- <-. constructor. constructor; [eapply IHv; exact Ev|eapply IHi; exact Ei]. }
    destruct (code c =? 123)%N.
    { destruct (skip_ws t) as [|c' r']; [discriminate|].
      destruct (code c' =? 125)%N; [intro H; injection H as <- <-; constructor; [constructor|constructor]|].
      destruct (read_members fr n [] t) as [[m r2]|] eqn:Em; [|discriminate]. intro H. injection H as <- <-.
      apply IHm in Em as [Ha Hf]; [|constructor|constructor]. constructor; assumption. }
    destruct (code c =? 34)%N.
    { destruct (read_str (length t) t) as [[t' r']|] eqn:Er; [|discriminate]. intro H. injection H as <- <-.
      constructor. apply utf8_U. eapply read_str_U. exact Er. }
    destruct ((code c =? 45)%N || is_digit c).
    { destruct (scan_number (c :: t)) as [[[[neg ds] more] r']|]; [|discriminate].
      destruct (number fr neg ds more) as [v|] eqn:En; [|discriminate]. intro H. injection H as <- <-. eapply number_wf. exact En. }
    destruct (strip (text "null") (c :: t)); [intro H; injection H as <- <-; constructor|].
    destruct (strip (text "true") (c :: t)); [intro H; injection H as <- <-; constructor|].
    destruct (strip (text "false") (c :: t)); [intro H; injection H as <- <-; constructor|discriminate].
  - intros s l r. rewrite read_items_S. destruct (skip_ws s) as [|c t]; [discriminate|].
    destruct (code c =? 93)%N; [intro H; injection H as <- <-; constructor|]. destruct (code c =? 44)%N; [|discriminate].
    destruct (read_value fr n t) as [[v r1]|] eqn:Ev; [|discriminate]. destruct (read_items fr n r1) as [[l' r2]|] eqn:Ei; [|discriminate].
    intro H. injection H as <- <-. constructor; [eapply IHv; exact Ev|eapply IHi; exact Ei].
  - intros m s m' r Ha Hf. rewrite read_members_S. destruct (skip_ws s) as [|c t]; [discriminate|].
    destruct (code c =? 34)%N; [|discriminate]. destruct (read_str (length t) t) as [[key r1]|] eqn:Er; [|discriminate].
    destruct (skip_ws r1) as [|c1 r2]; [discriminate|]. destruct (code c1 =? 58)%N; [|discriminate].
    destruct (read_value fr n r2) as [[v r3]|] eqn:Ev; [|discriminate]. destruct (skip_ws r3) as [|c2 r4]; [discriminate|].
    assert (Ha' : ascending (minsert str_ltb key v m)) by (apply (ordered_insert _ str_order); exact Ha).
    assert (Hf' : Forall (fun kv => utf8 (fst kv) = true /\ wf (snd kv)) (minsert str_ltb key v m)).
    { apply insert_Forall; [exact Hf|]. split; [apply utf8_U; eapply read_str_U; exact Er|eapply IHv; exact Ev]. }
    destruct (code c2 =? 125)%N; [intro H; injection H as <- <-; auto|]. destruct (code c2 =? 44)%N; [|discriminate].
    intro H. eapply IHm; eauto.
Qed.
Lemma parse_wf s j : parse fr s = Some j -> wf j.
Proof.
  unfold parse. cbn zeta. destruct (read_value fr _ _) as [[v r]|] eqn:E; [|discriminate].
  destruct (skip_ws r); [|discriminate]. intro H. injection H as <-. eapply (proj1 (read_wf _)). exact E.
Qed.
End Read.
