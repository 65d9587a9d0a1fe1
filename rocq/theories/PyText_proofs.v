(** Python strings and UTF-8: the conversions undo each other. *)
From Coq Require Import String List Arith NArith ZArith Ascii Bool Lia ZifyN.
Import ListNotations.
From Verif Require Import OMap_model Json_model Json_proofs JsonRead_proofs PyJson_model PyJson_spec.
Local Open Scope nat_scope.
Local Notation length := List.length.
Ltac Zify.zify_post_hook ::= Z.div_mod_to_equations.

Lemma ch_code a : ch (code a) = a.
Proof. apply ascii_N_embedding. Qed.
Lemma surrogate_spec n : surrogate n = true <-> (55296 <= n <= 57343)%N.
Proof. unfold surrogate. rewrite andb_true_iff, !N.leb_le. reflexivity. Qed.
Lemma surrogate_not n : surrogate n = false <-> ~ (55296 <= n <= 57343)%N.
Proof. rewrite <- surrogate_spec. destruct (surrogate n); split; congruence. Qed.

Lemma low a k n : (code a = k + n)%N -> a = ch (k + n).
Proof. intros <-. symmetry. apply ch_code. Qed.

(** A sequence at the head is that of its code point. *)
Lemma head_point s h r : utf8_head s = Some (h, r) -> s = h ++ r /\ h <> [] /\ encode (point h) = h /\ (point h < 1114112)%N /\ surrogate (point h) = false.
Proof.
  intros H. destruct s as [|a s1]; [discriminate|]. cbn [utf8_head] in H.
  destruct (between 0 127 a) eqn:Ea.
  { assert (h = [a] /\ r = s1) as [-> ->] by (split; congruence). apply between_range in Ea. cbn [point]. split; [reflexivity|]; split; [discriminate|]; split; [|split].
    - unfold encode. rewrite (proj2 (N.ltb_lt _ _)) by lia. now rewrite ch_code.
    - lia.
    - apply surrogate_not. lia. }
  destruct s1 as [|b s2]; [discriminate|]. destruct (between 194 223 a && cont b) eqn:E2.
  { assert (h = [a; b] /\ r = s2) as [-> ->] by (split; congruence). apply andb_true_iff in E2 as [A B]. apply between_range in A, B. cbn [point].
    remember (code a) as ca eqn:Ha. remember (code b) as cb eqn:Hb.
    assert (Ex : exists x, ca = (192 + x)%N /\ (2 <= x < 32)%N) by (exists (ca - 192)%N; lia). destruct Ex as (x & -> & Hx).
    assert (Ey : exists y, cb = (128 + y)%N /\ (y < 64)%N) by (exists (cb - 128)%N; lia). destruct Ey as (y & -> & Hy).
    assert (Ep : ((192 + x) mod 32 * 64 + (128 + y) mod 64 = x * 64 + y)%N) by lia. rewrite Ep.
    split; [reflexivity|]; split; [discriminate|]; split; [|split].
    - unfold encode. rewrite (proj2 (N.ltb_ge _ _)) by lia. rewrite (proj2 (N.ltb_lt _ _)) by lia.
      replace ((x * 64 + y) / 64)%N with x by lia. replace ((x * 64 + y) mod 64)%N with y by lia. now rewrite Ha, Hb, !ch_code.
    - lia.
    - apply surrogate_not. lia. }
  destruct s2 as [|c s3]; [discriminate|]. destruct (cont c && _) eqn:E3 in H.
  { assert (h = [a; b; c] /\ r = s3) as [-> ->] by (split; congruence). apply andb_true_iff in E3 as [C E3]. apply between_range in C.
    assert (R : (224 <= code a <= 239 /\ 128 <= code b <= 191 /\ (code a = 224 -> 160 <= code b) /\ (code a = 237 -> code b <= 159))%N).
    { rewrite !orb_true_iff, !andb_true_iff in E3. destruct E3 as [[[[X Y]|[X Y]]|[X Y]]|[X Y]]; apply between_range in X, Y; lia. }
    clear E3. cbn [point]. remember (code a) as ca eqn:Ha. remember (code b) as cb eqn:Hb. remember (code c) as cc eqn:Hc.
    assert (Ex : exists x, ca = (224 + x)%N /\ (x < 16)%N) by (exists (ca - 224)%N; lia). destruct Ex as (x & -> & Hx).
    assert (Ey : exists y, cb = (128 + y)%N /\ (y < 64)%N) by (exists (cb - 128)%N; lia). destruct Ey as (y & -> & Hy).
    assert (Ez : exists z, cc = (128 + z)%N /\ (z < 64)%N) by (exists (cc - 128)%N; lia). destruct Ez as (z & -> & Hz).
    assert (Ep : (((224 + x) mod 16 * 64 + (128 + y) mod 64) * 64 + (128 + z) mod 64 = x * 4096 + y * 64 + z)%N) by lia. rewrite Ep.
    split; [reflexivity|]; split; [discriminate|]; split; [|split].
    - unfold encode. rewrite (proj2 (N.ltb_ge _ _)) by lia. rewrite (proj2 (N.ltb_ge _ _)) by lia. rewrite (proj2 (N.ltb_lt _ _)) by lia.
      replace ((x * 4096 + y * 64 + z) / 4096)%N with x by lia. replace ((x * 4096 + y * 64 + z) / 64)%N with (x * 64 + y)%N by lia.
      replace ((x * 64 + y) mod 64)%N with y by lia. replace ((x * 4096 + y * 64 + z) mod 64)%N with z by lia. now rewrite Ha, Hb, Hc, !ch_code.
    - lia.
    - apply surrogate_not. lia. }
  destruct s3 as [|d s4]; [discriminate|]. destruct (cont c && cont d && _) eqn:E4 in H; [|discriminate].
  assert (h = [a; b; c; d] /\ r = s4) as [-> ->] by (split; congruence). apply andb_true_iff in E4 as [CD E4]. apply andb_true_iff in CD as [C D]. apply between_range in C, D.
  assert (R : (240 <= code a <= 244 /\ 128 <= code b <= 191 /\ (code a = 240 -> 144 <= code b) /\ (code a = 244 -> code b <= 143))%N).
  { rewrite !orb_true_iff, !andb_true_iff in E4. destruct E4 as [[[X Y]|[X Y]]|[X Y]]; apply between_range in X, Y; lia. }
  clear E4 E3 E2 Ea H. cbn [point]. remember (code a) as ca eqn:Ha. remember (code b) as cb eqn:Hb. remember (code c) as cc eqn:Hc. remember (code d) as cd eqn:Hd.
  assert (Ex : exists x, ca = (240 + x)%N /\ (x < 8)%N) by (exists (ca - 240)%N; lia). destruct Ex as (x & -> & Hx).
  assert (Ey : exists y, cb = (128 + y)%N /\ (y < 64)%N) by (exists (cb - 128)%N; lia). destruct Ey as (y & -> & Hy).
  assert (Ez : exists z, cc = (128 + z)%N /\ (z < 64)%N) by (exists (cc - 128)%N; lia). destruct Ez as (z & -> & Hz).
  assert (Ew : exists w, cd = (128 + w)%N /\ (w < 64)%N) by (exists (cd - 128)%N; lia). destruct Ew as (w & -> & Hw).
  assert (Ep : ((((240 + x) mod 8 * 64 + (128 + y) mod 64) * 64 + (128 + z) mod 64) * 64 + (128 + w) mod 64 = x * 262144 + y * 4096 + z * 64 + w)%N) by lia. rewrite Ep. clear Ep.
  split; [reflexivity|]; split; [discriminate|]; split; [|split].
  - unfold encode. rewrite (proj2 (N.ltb_ge _ _)) by lia. rewrite (proj2 (N.ltb_ge _ _)) by lia. rewrite (proj2 (N.ltb_ge _ _)) by lia.
    replace ((x * 262144 + y * 4096 + z * 64 + w) / 262144)%N with x by lia. replace ((x * 262144 + y * 4096 + z * 64 + w) / 4096)%N with (x * 64 + y)%N by lia.
    replace ((x * 262144 + y * 4096 + z * 64 + w) / 64)%N with (x * 4096 + y * 64 + z)%N by lia.
    replace ((x * 64 + y) mod 64)%N with y by lia. replace ((x * 4096 + y * 64 + z) mod 64)%N with z by lia.
    replace ((x * 262144 + y * 4096 + z * 64 + w) mod 64)%N with w by lia. now rewrite Ha, Hb, Hc, Hd, !ch_code.
  - lia.
  - apply surrogate_not. lia.
Qed.

(** The sequence of a code point is read as it. *)
Lemma point_encode n : (n < 1114112)%N -> point (encode n) = n.
Proof.
  intros Hn. unfold encode. destruct (N.ltb_spec n 128); [cbn [point]; apply code_ch; lia|].
  destruct (N.ltb_spec n 2048); [cbn [point]; rewrite !code_ch by lia; lia|].
  pose proof (N.div_mod' n 64) as D1. pose proof (N.mod_lt n 64 ltac:(lia)) as M1.
  pose proof (N.div_mod' (n / 64) 64) as D2. pose proof (N.mod_lt (n / 64) 64 ltac:(lia)) as M2. rewrite N.div_div in D2 by lia. change (64 * 64)%N with 4096%N in D2.
  pose proof (N.div_mod' (n / 4096) 64) as D3. pose proof (N.mod_lt (n / 4096) 64 ltac:(lia)) as M3. rewrite N.div_div in D3 by lia. change (4096 * 64)%N with 262144%N in D3.
  remember (n mod 64)%N as r1 eqn:X1; remember ((n / 64) mod 64)%N as r2 eqn:X2; remember ((n / 4096) mod 64)%N as r3 eqn:X3.
  remember (n / 64)%N as q1 eqn:X4; remember (n / 4096)%N as q2 eqn:X5; remember (n / 262144)%N as q3 eqn:X6. clear X1 X2 X3 X4 X5 X6.
  assert (Hm : forall r, (r < 64 -> (128 + r) mod 64 = r)%N) by (intros; lia).
  destruct (N.ltb_spec n 65536); cbn [point]; rewrite !code_ch, !Hm by lia.
  - replace ((224 + q2) mod 16)%N with q2; [lia|]. assert (HQ : (q2 < 16)%N) by lia. clear - HQ. lia.
  - replace ((240 + q3) mod 8)%N with q3; [lia|]. assert (HQ : (q3 < 8)%N) by lia. clear - HQ. lia.
Qed.

Theorem utf8_back s b : a_str s -> to_utf8 s = Some b -> of_utf8 b = Some s.
Proof.
  unfold of_utf8. intros Hs. assert (G : forall b k, to_utf8 s = Some b -> length b <= k -> points k b = Some s); [|intro; now apply G].
  clear b. induction Hs as [|n s Hn Hs IH]; cbn [to_utf8]; intros b k E Hk.
  - injection E as <-. destruct k; reflexivity.
  - destruct (surrogate n) eqn:En; [discriminate|]. destruct (to_utf8 s) as [b'|]; [|discriminate]. cbn in E. injection E as <-.
    pose proof (proj1 (surrogate_not n) En). pose proof (encode_head n b' ltac:(lia)) as Eh. apply head_point in Eh as HP. destruct HP as (_ & Hne & _ & _).
    destruct (encode n) as [|c e] eqn:Ee; [congruence|]. rewrite app_length in Hk. cbn [length] in Hk. cbn [app] in *. destruct k as [|k]; [lia|].
    cbn [points]. rewrite Eh. rewrite (IH b' k) by (auto; lia). cbn [option_map]. rewrite <- Ee, point_encode by auto. reflexivity.
Qed.
Lemma points_spec k b s : points k b = Some s -> to_utf8 s = Some b /\ a_str s.
Proof.
  revert b s. induction k as [|k IH]; intros [|c b] s E; cbn [points] in E; try discriminate.
  - injection E as <-. split; [reflexivity|constructor].
  - injection E as <-. split; [reflexivity|constructor].
  - destruct (utf8_head (c :: b)) as [[h r]|] eqn:Eh; [|discriminate]. destruct (points k r) as [s'|] eqn:Er; [|discriminate].
    cbn in E. injection E as <-. apply head_point in Eh as (-> & _ & Ee & Hp & Hs). destruct (IH _ _ Er) as [E1 H1]. cbn [to_utf8]. rewrite Hs, E1. cbn [option_map]. rewrite Ee.
    split; [reflexivity|now constructor].
Qed.
Theorem utf8_there b s : of_utf8 b = Some s -> to_utf8 s = Some b /\ a_str s.
Proof. apply points_spec. Qed.
(** Which text is read, which is written. *)
Lemma points_utf8 k b : length b <= k -> (points k b <> None <-> utf8_fuel k b = true).
Proof.
  revert b. induction k as [|k IH]; intros [|c b] Hk; cbn [points utf8_fuel]; [split; congruence|cbn in Hk; lia|split; congruence|].
  destruct (utf8_head (c :: b)) as [[h r]|] eqn:Eh; [|split; congruence]. apply head_point in Eh as (E & Hne & _). assert (Hr : length r <= k).
  { assert (L : length (c :: b) = length h + length r) by (rewrite E; apply app_length). cbn [length] in L, Hk. destruct h; [congruence|]. cbn [length] in L. lia. }
  specialize (IH r Hr). rewrite <- IH. destruct (points k r); cbn [option_map]; [split; discriminate|split; intros H; now destruct H].
Qed.
Theorem of_utf8_ok b : of_utf8 b <> None <-> utf8 b = true.
Proof. apply points_utf8. auto. Qed.
Theorem to_utf8_ok s : to_utf8 s <> None <-> no_surrogate s.
Proof.
  induction s as [|n s IH]; cbn [to_utf8]; [split; [constructor|discriminate]|]. unfold no_surrogate in *. rewrite Forall_cons_iff, <- IH, <- surrogate_not.
  destruct (surrogate n); [split; [congruence|intros [? _]; congruence]|]. destruct (to_utf8 s); cbn [option_map].
  - split; [intros _; split; [reflexivity|discriminate]|discriminate].
  - split; [intros H; now destruct H|intros [_ H]; now destruct H].
Qed.
