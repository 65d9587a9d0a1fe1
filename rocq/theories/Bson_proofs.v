From Coq Require Import String List Arith NArith ZArith Ascii Bool Lia Permutation Sorting.Sorted.
Import ListNotations.
From Verif Require Import OMap_model OMap_proofs Json_model Json_spec Json_proofs Str_proofs Bson_model Bson_spec.
Local Open Scope nat_scope.
Local Notation length := List.length.

(** ** Maps *)
Lemma insert_absent {K V} (ltb : K -> K -> bool) k (v : V) m : mfind ltb k m = None -> Permutation ((k, v) :: m) (minsert ltb k v m).
Proof.
  induction m as [|[k' v'] m IH]; cbn; intros H; [auto|]. destruct (ltb k k'); [auto|]. destruct (ltb k' k); [|discriminate].
  rewrite perm_swap. constructor. auto.
Qed.

(** ** Numbers *)
Lemma code_ch n : (n < 256)%N -> code (ch n) = n.
Proof. intros H. unfold code, ch. now apply N_ascii_embedding. Qed.
Lemma code_lt c : (code c < 256)%N.
Proof. unfold code. destruct c as [[] [] [] [] [] [] [] []]; reflexivity. Qed.

Lemma le_length n : forall z, length (le n z) = n.
Proof. induction n; cbn; auto. Qed.
Lemma le_value n : forall z, le_val (le n z) = (z mod 256 ^ Z.of_nat n)%Z.
Proof.
  induction n as [|n IH]; intros z; [cbn; now rewrite Z.mod_1_r|]. cbn [le le_val]. rewrite IH.
  pose proof (Z.mod_pos_bound z 256 ltac:(lia)). rewrite code_ch by (apply N2Z.inj_lt; rewrite Z2N.id; cbn; lia). rewrite Z2N.id by lia.
  rewrite Nat2Z.inj_succ, Z.pow_succ_r by lia. rewrite Z.rem_mul_r by (try apply Z.pow_pos_nonneg; lia). lia.
Qed.
Lemma le_val_bound b : (0 <= le_val b < 256 ^ Z.of_nat (length b))%Z.
Proof.
  induction b as [|c b IH]; [cbn; lia|]. cbn [le_val length]. rewrite Nat2Z.inj_succ, Z.pow_succ_r by lia. pose proof (code_lt c).
  assert (Z.of_N (code c) < 256)%Z by lia. lia.
Qed.
Lemma pow256 n : (256 ^ Z.of_nat n = 2 ^ (8 * Z.of_nat n))%Z.
Proof. rewrite Z.pow_mul_r by lia. reflexivity. Qed.
Lemma signed_le n z : n <> 0 -> (- 2 ^ (8 * Z.of_nat n - 1) <= z < 2 ^ (8 * Z.of_nat n - 1))%Z -> signed n (le n z) = z.
Proof.
  intros Hn Hz. unfold signed. rewrite le_value, pow256.
  assert (E : (2 ^ (8 * Z.of_nat n) = 2 * 2 ^ (8 * Z.of_nat n - 1))%Z) by (rewrite <- Z.pow_succ_r by lia; f_equal; lia).
  set (h := (2 ^ (8 * Z.of_nat n - 1))%Z) in *. rewrite E. destruct (Z.ltb_spec z 0).
  - replace (z mod (2 * h))%Z with (z + 2 * h)%Z.
    + destruct (Z.ltb_spec (z + 2 * h) h); lia.
    + apply Z.mod_unique with (q := (-1)%Z); lia.
  - rewrite Z.mod_small by lia. destruct (Z.ltb_spec z h); lia.
Qed.
Lemma signed_range n b : n <> 0 -> length b = n -> (- 2 ^ (8 * Z.of_nat n - 1) <= signed n b < 2 ^ (8 * Z.of_nat n - 1))%Z.
Proof.
  intros Hn <-. unfold signed. pose proof (le_val_bound b) as B. rewrite pow256 in B.
  assert (E : (2 ^ (8 * Z.of_nat (length b)) = 2 * 2 ^ (8 * Z.of_nat (length b) - 1))%Z) by (rewrite <- Z.pow_succ_r by lia; f_equal; lia).
  destruct (Z.ltb_spec (le_val b) (2 ^ (8 * Z.of_nat (length b) - 1))); lia.
Qed.

Lemma take_app n (a r : bytes) : Z.of_nat (length a) = n -> take n (a ++ r) = Some (a, r).
Proof.
  intros <-. unfold take. rewrite app_length, Nat2Z.id. destruct (Z.ltb_spec (Z.of_nat (length a + length r)) (Z.of_nat (length a))); [lia|].
  rewrite firstn_app, Nat.sub_diag, firstn_all, firstn_O, app_nil_r, skipn_app, Nat.sub_diag, skipn_all, skipn_O. reflexivity.
Qed.
Lemma take_some n s a r : (0 <= n)%Z -> take n s = Some (a, r) -> s = a ++ r /\ Z.of_nat (length a) = n.
Proof.
  unfold take. intros Hn. destruct (Z.ltb_spec (Z.of_nat (length s)) n); [discriminate|]. intros H0. injection H0 as <- <-.
  rewrite firstn_skipn. split; auto. rewrite firstn_length. lia.
Qed.

Lemma has_nul_spec k : has_nul k = false <-> ~ In nul k.
Proof.
  unfold has_nul. split.
  - intros H Hin. assert (X : existsb (fun c => Ascii.eqb c nul) k = true) by (apply existsb_exists; exists nul; split; auto; apply Ascii.eqb_refl). congruence.
  - intros H. destruct (existsb _ k) eqn:E; auto. apply existsb_exists in E as (c & Hc & E). apply Ascii.eqb_eq in E. subst. contradiction.
Qed.
Lemma cut_nul_app k r : has_nul k = false -> cut_nul (k ++ nul :: r) = Some (k, r).
Proof.
  induction k as [|c k IH]; cbn [app cut_nul has_nul existsb]; intros H; [reflexivity|].
  apply orb_false_iff in H as [H1 H2]. rewrite H1. unfold has_nul in IH. rewrite IH; auto.
Qed.
Lemma cut_nul_some s k r : cut_nul s = Some (k, r) -> s = k ++ nul :: r /\ has_nul k = false.
Proof.
  revert k r. induction s as [|c s IH]; intros k r; cbn [cut_nul]; [discriminate|]. destruct (Ascii.eqb c nul) eqn:E.
  - intros H. injection H as <- <-. apply Ascii.eqb_eq in E. subst. auto.
  - destruct (cut_nul s) as [[a r']|] eqn:E'; [|discriminate]. intros H. injection H as <- <-. destruct (IH _ _ eq_refl) as [-> H2]. split; auto.
    unfold has_nul in *. cbn [existsb]. now rewrite E.
Qed.
Lemma digits_no_nul n : has_nul (dump_nat n) = false.
Proof.
  apply has_nul_spec. intros H. pose proof (dump_nat_digits n) as D. rewrite forallb_forall in D. apply D in H. discriminate.
Qed.

Section Bson.
Context {F : Type} (f64 : F -> bytes) (unf64 : bytes -> F).
Notation enc := (enc f64). Notation to_bson := (to_bson f64). Notation dec := (dec unf64). Notation dec_list := (dec_list unf64). Notation from_bson := (from_bson unf64).

(** ** What is written is read *)
Hypothesis E8 : eight f64 unf64.

Lemma sendable_arr l : sendable (F := F) (JArr l) -> Forall sendable l.
Proof. intros H. now inversion H. Qed.
Lemma sendable_obj m : sendable (F := F) (JObj m) -> ascending m /\ Forall (fun kv => ~ In nul (fst kv) /\ sendable (snd kv)) m.
Proof. intros H. now inversion H. Qed.

(** The types that are written. *)
Definition plain_type (t : ascii) : Prop := Ascii.eqb t nul = false.

(** One value: what [enc] gives is read back as the value. *)
Definition good (j : json F) : Prop :=
  sendable j -> exists t v, enc j = Some (t, v) /\ plain_type t /\ forall n r, length (v ++ r) < n -> dec n (code t) (v ++ r) = Some (j, r).

Lemma elements_read {A} (key : nat -> A -> bytes) (e1 : A -> option (ascii * bytes)) (val : A -> json F) l :
  forall i, Forall (fun x => (forall i, has_nul (key i x) = false) /\ exists t v, e1 x = Some (t, v) /\ plain_type t /\ forall n r, length (v ++ r) < n -> dec n (code t) (v ++ r) = Some (val x, r)) l ->
  exists b ks, elements key e1 i l = Some b /\ length ks = length l /\ ks = map (fun p => key (i + fst p) (snd p)) (combine (seq 0 (length l)) l) /\
    forall n r, length (b ++ nul :: r) < n -> dec_list n (b ++ nul :: r) = Some (combine ks (map val l), r).
Proof.
  induction l as [|x l IH]; intros i HF.
  - exists [], []. cbn. repeat split. intros [|n] r Hn; [cbn in Hn; lia|reflexivity].
  - inversion HF as [|? ? (Hk & t & v & Ee & Pt & Hd) HF' X1]; subst. clear HF. destruct (IH (S i) HF') as (b & ks & Eb & Lk & Ek & Hr).
    exists (t :: key i x ++ nul :: v ++ b), (key i x :: ks). cbn [elements]. rewrite Hk, Ee, Eb. repeat split.
    + cbn. now rewrite Lk.
    + cbn [length seq combine map fst snd]. rewrite Nat.add_0_r. f_equal. rewrite Ek. rewrite <- (seq_shift (length l) 0).
      clear. revert i. generalize (seq 0 (length l)). induction l as [|y l IH]; intros [|a s] i; cbn; auto. f_equal; [f_equal; lia|]. apply IH.
    + intros n r Hn. destruct n as [|n]; [lia|]. cbn [app] in *. rewrite <- !app_assoc in *. cbn [app] in *. rewrite <- app_assoc in *.
      cbn [Bson_model.dec_list]. rewrite Pt. rewrite cut_nul_app by auto. cbn [length] in Hn. rewrite !app_length in Hn. cbn [length] in Hn. rewrite !app_length in Hn. cbn [length] in Hn.
      rewrite Hd by (rewrite !app_length; cbn [length]; lia). rewrite Hr by (rewrite !app_length; cbn [length]; lia). reflexivity.
Qed.

Lemma object_ascending_aux m : forall acc, ascending (acc ++ m) -> fold_left (fun m kv => minsert str_ltb (fst kv) (snd kv) m) m acc = acc ++ m :> list (bytes * json F).
Proof.
  induction m as [|[k v] m IH]; intros acc HA; cbn [fold_left]; [now rewrite app_nil_r|].
  assert (E : minsert str_ltb k v acc = acc ++ [(k, v)]).
  { clear IH. induction acc as [|[k' v'] acc IHa]; [reflexivity|]. cbn [app] in HA. inversion HA as [|? ? HS HF]; subst. cbn [minsert app].
    rewrite Forall_forall in HF. specialize (HF (k, v) ltac:(apply in_or_app; right; now left)). cbn in HF.
    rewrite (ltb_asym str_ltb str_order _ _ HF), HF. f_equal. auto. }
  cbn [fst snd]. rewrite E. rewrite IH; [now rewrite <- app_assoc|now rewrite <- app_assoc].
Qed.
Lemma object_ascending (m : list (bytes * json F)) : ascending m -> object m = m.
Proof. intros H. unfold object. now rewrite object_ascending_aux. Qed.

Lemma combine_self (m : list (bytes * json F)) : combine (map fst m) (map snd m) = m.
Proof. induction m as [|[k v] m IH]; cbn; congruence. Qed.
Lemma map_snd_combine {A B} : forall (a : list A) (b : list B), length a = length b -> map snd (combine a b) = b.
Proof. induction a; intros [|y b] H; cbn in *; try discriminate; auto. f_equal. auto. Qed.
Lemma map_pair_const {A B} (f : A -> B) (l : list A) : map (fun p : nat * A => f (snd p)) (combine (seq 0 (length l)) l) = map f l.
Proof. generalize 0. induction l; intros n; cbn; auto. now rewrite IHl. Qed.

Lemma all_good j : good j.
Proof.
  induction j as [|b|z|f|s|l IH|m IH] using json_full_ind; intros Hs.
  - exists (ch 10), []. repeat split. intros [|n] r Hn; [lia|reflexivity].
  - exists (ch 8), [if b then ch 1 else ch 0]. repeat split. intros [|n] r Hn; [lia|]. destruct b; reflexivity.
  - inversion Hs as [| |z' Hz| | | |]; subst. cbn [Bson_model.enc]. destruct ((-2147483648 <=? z) && (z <=? 2147483647))%Z eqn:E1.
    + apply andb_true_iff in E1 as [E1 E2]. apply Z.leb_le in E1, E2. exists (ch 16), (le 4 z). repeat split. intros [|n] r Hn; [lia|].
      cbn [Bson_model.dec]. change (code (ch 16)) with 16%N. cbn match. rewrite take_app by (now rewrite le_length). rewrite signed_le; [reflexivity|lia|].
      change (2 ^ (8 * Z.of_nat 4 - 1))%Z with 2147483648%Z. lia.
    + replace ((-9223372036854775808 <=? z) && (z <=? 9223372036854775807))%Z with true by (symmetry; apply andb_true_iff; split; apply Z.leb_le; lia).
      exists (ch 18), (le 8 z). repeat split. intros [|n] r Hn; [lia|].
      cbn [Bson_model.dec]. change (code (ch 18)) with 18%N. cbn match. rewrite take_app by (now rewrite le_length). rewrite signed_le; [reflexivity|lia|].
      change (2 ^ (8 * Z.of_nat 8 - 1))%Z with 9223372036854775808%Z. lia.
  - destruct (E8 f) as [L8 R8]. exists (ch 1), (f64 f). repeat split. intros [|n] r Hn; [lia|]. cbn [Bson_model.dec]. change (code (ch 1)) with 1%N. cbn match.
    rewrite take_app by (now rewrite L8). now rewrite R8.
  - inversion Hs as [| | | |s' Hl| |]; subst. exists (ch 2), (le 4 (Z.of_nat (length s) + 1) ++ s ++ [nul]). repeat split. intros [|n] r Hn; [lia|].
    cbn [Bson_model.dec]. change (code (ch 2)) with 2%N. cbn match. rewrite <- app_assoc. rewrite take_app by (now rewrite le_length). rewrite signed_le;
      [|lia|change (2 ^ (8 * Z.of_nat 4 - 1))%Z with 2147483648%Z; lia]. destruct (Z.ltb_spec (Z.of_nat (length s) + 1) 1); [lia|].
    rewrite <- app_assoc. cbn [app]. rewrite take_app by lia. reflexivity.
  - apply sendable_arr in Hs.
    assert (HF : Forall (fun x => (forall i, has_nul ((fun i _ => dump_nat (N.of_nat i)) i x) = false) /\
       exists t v, enc x = Some (t, v) /\ plain_type t /\ forall n r, length (v ++ r) < n -> dec n (code t) (v ++ r) = Some ((fun x => x) x, r)) l).
    { rewrite Forall_forall in *. intros x Hx. split; [intros; apply digits_no_nul|]. apply IH; auto. }
    destruct (elements_read _ enc (fun x => x) l 0 HF) as (b & ks & Eb & Lk & _ & Hr).
    cbn [Bson_model.enc]. rewrite Eb. cbn [doc option_map]. eexists. eexists. split; [reflexivity|]. split; [reflexivity|]. intros [|n] r Hn; [lia|].
    cbn [Bson_model.dec]. change (code (ch 4)) with 4%N. cbn match. rewrite <- app_assoc in *. rewrite take_app by (now rewrite le_length). rewrite <- app_assoc in *. cbn [app] in *.
    rewrite app_length, le_length in Hn. rewrite Hr by lia. rewrite map_id. rewrite map_snd_combine by auto. reflexivity.
  - apply sendable_obj in Hs as [HA Hs].
    assert (HF : Forall (fun x => (forall i, has_nul ((fun (_ : nat) kv => fst kv) i x) = false) /\
       exists t v, (fun kv => enc (snd kv)) x = Some (t, v) /\ plain_type t /\ forall n r, length (v ++ r) < n -> dec n (code t) (v ++ r) = Some (snd x, r)) m).
    { rewrite Forall_forall in *. intros x Hx. destruct (Hs x Hx) as [Hs1 Hs2]. split; [intros; now apply has_nul_spec|]. apply IH; auto. }
    destruct (elements_read _ (fun kv => enc (snd kv)) snd m 0 HF) as (b & ks & Eb & Lk & Ek & Hr).
    cbn [Bson_model.enc]. rewrite Eb. cbn [doc option_map]. eexists. eexists. split; [reflexivity|]. split; [reflexivity|]. intros [|n] r Hn; [lia|].
    cbn [Bson_model.dec]. change (code (ch 3)) with 3%N. cbn match. rewrite <- app_assoc in *. rewrite take_app by (now rewrite le_length). rewrite <- app_assoc in *. cbn [app] in *.
    rewrite app_length, le_length in Hn. rewrite Hr by lia. rewrite Ek, (map_pair_const fst), combine_self, object_ascending; auto.
Qed.

Lemma members_read m : sendable (JObj m) -> exists b, elements (fun _ kv => fst kv) (fun kv => enc (snd kv)) 0 m = Some b /\
  forall n r, length (b ++ nul :: r) < n -> dec_list n (b ++ nul :: r) = Some (m, r).
Proof.
  intros Hs. apply sendable_obj in Hs as [HA Hs].
  assert (HF : Forall (fun x => (forall i, has_nul ((fun (_ : nat) kv => fst kv) i x) = false) /\
       exists t v, (fun kv => enc (snd kv)) x = Some (t, v) /\ plain_type t /\ forall n r, length (v ++ r) < n -> dec n (code t) (v ++ r) = Some (snd x, r)) m).
  { rewrite Forall_forall in *. intros x Hx. destruct (Hs x Hx) as [Hs1 Hs2]. split; [intros; now apply has_nul_spec|]. apply all_good; auto. }
  destruct (elements_read _ (fun kv => enc (snd kv)) snd m 0 HF) as (b & ks & Eb & Lk & Ek & Hr). exists b. split; auto. intros n r Hn. rewrite Hr by auto.
  now rewrite Ek, (map_pair_const fst), combine_self.
Qed.

Theorem sent_received j : sendable j -> is_object j -> exists b, to_bson j = Some b /\ from_bson b = Some j.
Proof.
  intros Hs (m & ->). destruct (members_read _ Hs) as (b & Eb & Hr). apply sendable_obj in Hs as [HA _].
  unfold Bson_model.to_bson. cbn [Bson_model.enc]. rewrite Eb. cbn [doc option_map snd]. eexists. split; [reflexivity|].
  unfold Bson_model.from_bson. rewrite take_app by (now rewrite le_length). rewrite Hr by lia. now rewrite object_ascending.
Qed.

(** The declared size of the message is its length. *)
(** Exactly these values are written; all others are errors. *)
Lemma elements_some {A} (key : nat -> A -> bytes) (e1 : A -> option (ascii * bytes)) l : forall i,
  elements key e1 i l <> None <-> (forall j x, nth_error l j = Some x -> has_nul (key (i + j) x) = false /\ e1 x <> None).
Proof.
  induction l as [|x l IH]; intros i; cbn [elements].
  - split; [intros _ [|j] y H; discriminate|discriminate].
  - split.
    + destruct (has_nul (key i x)) eqn:En; [congruence|]. destruct (e1 x) as [[t v]|] eqn:E1; [|congruence]. destruct (elements key e1 (S i) l) eqn:El; [|congruence]. intros _ [|j] y H; cbn in H.
      * injection H as <-. rewrite Nat.add_0_r. split; congruence.
      * replace (i + S j) with (S i + j) by lia. apply IH; congruence.
    + intros H. destruct (H 0 x eq_refl) as [H1 H2]. rewrite Nat.add_0_r in H1. rewrite H1. destruct (e1 x) as [[t v]|]; [|congruence]. assert (G : elements key e1 (S i) l <> None).
      { apply IH. intros j y Hy. replace (S i + j) with (i + S j) by lia. now apply H. }
      destruct (elements key e1 (S i) l); [discriminate|congruence].
Qed.
Lemma enc_some j : enc j <> None <-> writable j.
Proof.
  induction j as [|b|z|f|s|l IH|m IH] using json_full_ind; cbn [Bson_model.enc].
  - split; [constructor|discriminate].
  - split; [constructor|discriminate].
  - destruct ((-2147483648 <=? z) && (z <=? 2147483647))%Z eqn:E1.
    + apply andb_prop in E1 as [E1 E2]. apply Z.leb_le in E1, E2. split; [constructor; lia|discriminate].
    + destruct ((-9223372036854775808 <=? z) && (z <=? 9223372036854775807))%Z eqn:E2.
      * apply andb_prop in E2 as [E2 E3]. apply Z.leb_le in E2, E3. split; [constructor; lia|discriminate].
      * split; [congruence|]. inversion 1; subst. exfalso. apply Bool.not_true_iff_false in E2. apply E2. apply andb_true_intro. split; apply Z.leb_le; lia.
  - split; [constructor|discriminate].
  - split; [constructor|discriminate].
  - assert (G : elements (fun i _ => dump_nat (N.of_nat i)) enc 0 l <> None <-> Forall writable l).
    { rewrite elements_some. split.
      - intros H. apply Forall_forall. intros x Hx. rewrite Forall_forall in IH. apply IH; [exact Hx|]. apply In_nth_error in Hx as (j & Hj). now apply (H j).
      - intros H j x Hx. split; [apply digits_no_nul|]. apply nth_error_In in Hx. rewrite Forall_forall in IH, H. apply IH; auto. }
    unfold doc. destruct (elements (fun i _ => dump_nat (N.of_nat i)) enc 0 l); cbn [option_map].
    + split; [intros _; constructor; apply G; discriminate|discriminate].
    + split; [congruence|]. inversion 1; subst. exfalso. refine (proj2 G _ eq_refl). assumption.
  - assert (G : elements (fun _ kv => fst kv) (fun kv => enc (snd kv)) 0 m <> None <-> Forall (fun kv => ~ In nul (fst kv) /\ writable (snd kv)) m).
    { rewrite elements_some. split.
      - intros H. apply Forall_forall. intros x Hx. rewrite Forall_forall in IH. specialize (IH x Hx). apply In_nth_error in Hx as (j & Hj). destruct (H j x Hj) as [H1 H2]. split; [now apply has_nul_spec|now apply IH].
      - intros H j x Hx. apply nth_error_In in Hx. rewrite Forall_forall in IH, H. destruct (H x Hx). split; [now apply has_nul_spec|]. apply IH; auto. }
    unfold doc. destruct (elements (fun _ kv => fst kv) (fun kv => enc (snd kv)) 0 m); cbn [option_map].
    + split; [intros _; constructor; apply G; discriminate|discriminate].
    + split; [congruence|]. inversion 1; subst. exfalso. refine (proj2 G _ eq_refl). assumption.
Qed.
Theorem written_exactly j : to_bson j <> None <-> writable j /\ is_object j.
Proof.
  destruct j as [|b|z|f|s|l|m]; cbn [Bson_model.to_bson]; try (split; [congruence|intros [_ (m & H)]; discriminate]).
  rewrite <- enc_some. destruct (enc (JObj m)); cbn [option_map].
  - split; [|discriminate]. intros _. split; [discriminate|]. now exists m.
  - split; [congruence|]. intros [H _]. congruence.
Qed.

Theorem size_right j b : to_bson j = Some b -> le_val (firstn 4 b) = (Z.of_nat (length b) mod 4294967296)%Z.
Proof.
  unfold Bson_model.to_bson. destruct j; try discriminate. cbn [Bson_model.enc]. destruct (elements _ _ 0 l) as [e|]; [|discriminate]. cbn [doc option_map snd]. intros H.
  assert (Hb : b = le 4 (Z.of_nat (length e) + 5) ++ e ++ [nul]) by congruence. rewrite Hb. clear H Hb.
  rewrite firstn_app, le_length, Nat.sub_diag, firstn_O, app_nil_r, firstn_all2 by (now rewrite le_length). rewrite le_value.
  change (256 ^ Z.of_nat 4)%Z with 4294967296%Z. rewrite !app_length, le_length. cbn [length]. f_equal. lia.
Qed.
End Bson.

(** ** What is read can be sent *)
Section Read.
Context {F : Type} (f64 : F -> bytes) (unf64 : bytes -> F).
Notation enc := (enc f64). Notation to_bson := (to_bson f64). Notation dec := (dec unf64). Notation dec_list := (dec_list unf64). Notation from_bson := (from_bson unf64).

Lemma object_sendable l : Forall (fun kv => ~ In nul (fst kv) /\ sendable (F := F) (snd kv)) l -> sendable (JObj (object l)).
Proof.
  intros H. unfold object.
  assert (G : forall acc, ascending acc -> Forall (fun kv => ~ In nul (fst kv) /\ sendable (F := F) (snd kv)) acc ->
    sendable (JObj (fold_left (fun m kv => minsert str_ltb (fst kv) (snd kv) m) l acc))).
  { induction H as [|[k v] l [Hk Hv] Hl IH]; intros acc HA HF; cbn [fold_left]; [now constructor|]. apply IH.
    - apply (ordered_insert str_ltb str_order). exact HA.
    - apply insert_Forall; auto. }
  apply G; constructor.
Qed.

Lemma dec_S n t s : dec (S n) t s =
      match t with
      | 1%N => match take 8 s with Some (b, r) => Some (JFloat (unf64 b), r) | None => None end
      | 2%N => match take 4 s with
               | Some (b, r) =>
                   if (signed 4 b <? 1)%Z then None
                   else match take (signed 4 b - 1) r with
                        | Some (v, _ :: r') => Some (JStr v, r')
                        | _ => None
                        end
               | None => None
               end
      | 3%N => match take 4 s with
               | Some (_, r) => match dec_list n r with Some (l, r') => Some (JObj (object l), r') | None => None end
               | None => None
               end
      | 4%N => match take 4 s with
               | Some (_, r) => match dec_list n r with Some (l, r') => Some (JArr (map snd l), r') | None => None end
               | None => None
               end
      | 8%N => match s with
               | c :: r => Some (JBool (negb (Ascii.eqb c nul)), r)
               | [] => Some (JBool true, [])
               end
      | 10%N => Some (JNull, s)
      | 16%N => match take 4 s with Some (b, r) => Some (JInt (signed 4 b), r) | None => None end
      | 18%N => match take 8 s with Some (b, r) => Some (JInt (signed 8 b), r) | None => None end
      | _ => None
      end.
Proof. reflexivity. Qed.
Lemma dec_list_S n s : dec_list (S n) s =
      match s with
      | [] => None
      | t :: s1 =>
          if Ascii.eqb t nul then Some ([], s1)
          else match cut_nul s1 with
               | Some (k, s2) =>
                   match dec n (code t) s2 with
                   | Some (v, s3) => match dec_list n s3 with Some (l, s4) => Some ((k, v) :: l, s4) | None => None end
                   | None => None
                   end
               | None => None
               end
      end.
Proof. reflexivity. Qed.

(** The types the reader knows. *)
Lemma type_cases (P : N -> Prop) t : P 1%N -> P 2%N -> P 3%N -> P 4%N -> P 8%N -> P 10%N -> P 16%N -> P 18%N ->
  (~ In t [1; 2; 3; 4; 8; 10; 16; 18]%N -> P t) -> P t.
Proof.
  intros. destruct (in_dec N.eq_dec t [1; 2; 3; 4; 8; 10; 16; 18]%N) as [Hi|Hi]; [|auto]. cbn in Hi.
  repeat (destruct Hi as [<-|Hi]; [assumption|]). destruct Hi.
Qed.
Lemma dec_other n t s : ~ In t [1; 2; 3; 4; 8; 10; 16; 18]%N -> dec n t s = None.
Proof.
  intros H. destruct n; [reflexivity|]. rewrite dec_S. cbn in H.
  destruct t as [|p]; [reflexivity|].
  do 5 (try (destruct p as [p|p|]); try reflexivity); exfalso; apply H; auto 12.
Qed.

Lemma read_sound n : (forall t s v r, dec n t s = Some (v, r) -> sendable v /\ length r <= length s) /\
  (forall s l r, dec_list n s = Some (l, r) -> Forall (fun kv => ~ In nul (fst kv) /\ sendable (snd kv)) l /\ length r < length s).
Proof.
  induction n as [|n [IH1 IH2]]; [split; discriminate|]. split.
  - intros t s v r. apply (type_cases (fun t => dec (S n) t s = Some (v, r) -> sendable v /\ length r <= length s)); rewrite ?dec_S.
    + destruct (take 8 s) as [[b q]|] eqn:E; [|discriminate]. intros H. injection H as <- <-. apply take_some in E as [-> _]; [|lia]. split; [constructor|rewrite app_length; lia].
    + destruct (take 4 s) as [[b q]|] eqn:E; [|discriminate]. apply take_some in E as [-> Lb]; [|lia]. assert (Lb' : length b = 4) by lia.
      pose proof (signed_range 4 b ltac:(lia) Lb') as R. change (2 ^ (8 * Z.of_nat 4 - 1))%Z with 2147483648%Z in R.
      destruct (Z.ltb_spec (signed 4 b) 1); [discriminate|]. destruct (take (signed 4 b - 1) q) as [[w [|c q']]|] eqn:E2; try discriminate.
      apply take_some in E2 as [-> Lw]; [|lia]. intros H0. injection H0 as <- <-. split; [constructor; lia|]. rewrite !app_length. cbn. lia.
    + destruct (take 4 s) as [[b q]|] eqn:E; [|discriminate]. apply take_some in E as [-> Lb]; [|lia]. destruct (dec_list n q) as [[l q']|] eqn:E2; [|discriminate].
      apply IH2 in E2 as [G1 G2]. intros H. injection H as <- <-. split; [now apply object_sendable|rewrite app_length; lia].
    + destruct (take 4 s) as [[b q]|] eqn:E; [|discriminate]. apply take_some in E as [-> Lb]; [|lia]. destruct (dec_list n q) as [[l q']|] eqn:E2; [|discriminate].
      apply IH2 in E2 as [G1 G2]. intros H. injection H as <- <-. split; [|rewrite app_length; lia]. constructor. apply Forall_map. eapply Forall_impl; [|exact G1]. cbn. tauto.
    + destruct s; intros H; injection H as <- <-; (split; [apply sd_bool|cbn; lia]).
    + intros H. injection H as <- <-. split; [constructor|lia].
    + destruct (take 4 s) as [[b q]|] eqn:E; [|discriminate]. intros H. injection H as <- <-. apply take_some in E as [-> Lb]; [|lia]. split; [constructor|rewrite app_length; lia].
      pose proof (signed_range 4 b ltac:(lia) ltac:(lia)) as R. change (2 ^ (8 * Z.of_nat 4 - 1))%Z with 2147483648%Z in R. lia.
    + destruct (take 8 s) as [[b q]|] eqn:E; [|discriminate]. intros H. injection H as <- <-. apply take_some in E as [-> Lb]; [|lia]. split; [constructor|rewrite app_length; lia].
      pose proof (signed_range 8 b ltac:(lia) ltac:(lia)) as R. change (2 ^ (8 * Z.of_nat 8 - 1))%Z with 9223372036854775808%Z in R. lia.
    + intros H H0. rewrite <- dec_S, dec_other in H0 by auto. discriminate.
  - intros s l r. rewrite dec_list_S. destruct s as [|t s1]; [discriminate|]. destruct (Ascii.eqb t nul).
    + intros H. injection H as <- <-. split; [constructor|cbn; lia].
    + destruct (cut_nul s1) as [[k s2]|] eqn:E; [|discriminate]. apply cut_nul_some in E as [-> Hk]. destruct (dec n (code t) s2) as [[v s3]|] eqn:E2; [|discriminate].
      destruct (dec_list n s3) as [[l' s4]|] eqn:E3; [|discriminate]. intros H. injection H as <- <-. apply IH1 in E2 as [G1 G2]. apply IH2 in E3 as [G3 G4].
      split; [constructor; auto; split; auto; cbn; now apply has_nul_spec|]. cbn [length]. rewrite app_length. cbn. lia.
Qed.

Theorem received_sendable s j : from_bson s = Some j -> sendable j /\ is_object j.
Proof.
  unfold Bson_model.from_bson. destruct (take 4 s) as [[b r]|]; [|discriminate]. destruct (dec_list (S (length r)) r) as [[l [|c q]]|] eqn:E; try discriminate.
  intros H. injection H as <-. apply (read_sound (S (length r))) in E as [E _]. split; [now apply object_sendable|eexists; reflexivity].
Qed.

(** The bound on the steps of the reader is never what stops it. *)
Lemma read_enough n : (forall m t s, length s < n -> n <= m -> dec m t s = dec n t s) /\
  (forall m s, length s < n -> n <= m -> dec_list m s = dec_list n s).
Proof.
  induction n as [|n [IH1 IH2]]; [split; intros; lia|]. split.
  - intros [|m] t s Hs Hm; [lia|]. rewrite !dec_S.
    assert (G : forall b q, take 4 s = Some (b, q) -> dec_list m q = dec_list n q).
    { intros b q E. apply take_some in E as [-> Lb]; [|lia]. rewrite app_length in Hs. apply IH2; lia. }
    destruct (take 4 s) as [[b q]|] eqn:E; [rewrite (G _ _ eq_refl)|]; reflexivity.
  - intros [|m] s Hs Hm; [lia|]. rewrite !dec_list_S. destruct s as [|t s1]; [reflexivity|]. destruct (Ascii.eqb t nul); [reflexivity|].
    destruct (cut_nul s1) as [[k s2]|] eqn:E; [|reflexivity]. apply cut_nul_some in E as [-> _]. cbn [length] in Hs. rewrite app_length in Hs. cbn [length] in Hs.
    rewrite (IH1 m) by lia. destruct (dec n (code t) s2) as [[v s3]|] eqn:E2; [|reflexivity]. apply (read_sound n) in E2 as [_ G2]. rewrite (IH2 m) by lia. reflexivity.
Qed.
End Read.
