From Coq Require Import Decimal String List Arith NArith ZArith Ascii Bool Lia Sorting.Sorted.
From Coq Require DecimalN DecimalNat.
Import ListNotations.
From Verif Require Import OMap_model OMap_proofs Json_model Json_spec.
Local Open Scope nat_scope.

(** ** Characters *)
Lemma code_inj a b : code a = code b -> a = b.
Proof. unfold code. intro H. rewrite <- (ascii_N_embedding a), <- (ascii_N_embedding b), H. reflexivity. Qed.

(** A character after a number that ends it. *)
Definition delim (r : bytes) : Prop :=
  match r with [] => True | c :: _ => is_digit c = false /\ code c <> 46%N /\ code c <> 101%N /\ code c <> 69%N end.

Lemma skip_ws_app w s : ws w -> skip_ws (w ++ s) = skip_ws s.
Proof.
  unfold ws. induction w as [|c w IH]; cbn; [reflexivity|]. intro H. apply andb_true_iff in H as [-> H]. auto.
Qed.
Lemma skip_ws_head c s : is_ws c = false -> skip_ws (c :: s) = c :: s.
Proof. intro H. cbn. rewrite H. reflexivity. Qed.
Lemma ws_app a b : ws a -> ws b -> ws (a ++ b).
Proof. unfold ws. intros. rewrite forallb_app. now rewrite H, H0. Qed.
Lemma ws_nil : ws []. Proof. reflexivity. Qed.
Lemma ws_delim w r : ws w -> delim r -> delim (w ++ r).
Proof.
  destruct w as [|c w]; [auto|]. unfold ws. cbn [forallb]. intros H _. apply andb_true_iff in H as [H _].
  cbn [app delim]. unfold is_ws in H. unfold is_digit, between.
  assert (G : (code c = 32 \/ code c = 9 \/ code c = 10 \/ code c = 13)%N).
  { repeat (apply orb_true_iff in H as [H|H]); apply N.eqb_eq in H; auto. }
  split; [|lia]. unfold is_digit, between. destruct G as [G|[G|[G|G]]]; rewrite G; reflexivity.
Qed.

(** ** Strings *)
Lemma one_ascii c : between 0 127 c = true -> forall n r,
  read_str (S n) (escape c ++ r) = match read_str n r with Some (t', r') => Some (c :: t', r') | None => None end.
Proof.
  destruct c as [[] [] [] [] [] [] [] []]; intro H; try discriminate H; clear H; intros n r; reflexivity.
Qed.
Lemma escape_high c : between 0 127 c = false -> escape c = [c].
Proof. destruct c as [[] [] [] [] [] [] [] []]; intro H; try discriminate H; reflexivity. Qed.
Lemma escape_length c : 1 <= length (escape c).
Proof. unfold escape. repeat match goal with |- context [if ?b then _ else _] => destruct b end; cbn; lia. Qed.

Lemma high_of a lo hi : (128 <= lo)%N -> between lo hi a = true -> between 0 127 a = false.
Proof.
  unfold between. intros Hl H. apply andb_true_iff in H as [H _]. apply N.leb_le in H.
  apply andb_false_iff. right. apply N.leb_gt. lia.
Qed.

Lemma utf8_head_case s h s' : utf8_head s = Some (h, s') ->
  s = h ++ s' /\ ((exists c, h = [c] /\ between 0 127 c = true)
    \/ (h <> [] /\ forallb (fun c => negb (between 0 127 c)) h = true /\ forall x, utf8_head (h ++ x) = Some (h, x))).
Proof.
  assert (Hcont : forall c, cont c = true -> negb (between 0 127 c) = true).
  { intros c H. apply negb_true_iff. eapply high_of; [|exact H]. lia. }
  assert (Hb : forall lo hi c, (128 <= lo)%N -> between lo hi c = true -> negb (between 0 127 c) = true).
  { intros. apply negb_true_iff. eapply high_of; eauto. }
  destruct s as [|a s1]; cbn [utf8_head]; [discriminate|].
  destruct (between 0 127 a) eqn:Ea.
  { intro H. injection H as <- <-. split; [reflexivity|]. left. eauto. }
  destruct s1 as [|b s2]; [discriminate|].
  destruct (between 194 223 a && cont b) eqn:E2.
  { intro H. injection H as <- <-. split; [reflexivity|]. right. split; [discriminate|].
    apply andb_true_iff in E2 as [E2a E2b]. split.
    - cbn [forallb]. rewrite Ea, (Hcont b E2b). reflexivity.
    - intro x. cbn [app utf8_head]. rewrite Ea, E2a, E2b. reflexivity. }
  destruct s2 as [|c s3]; [discriminate|].
  destruct (cont c && _) eqn:E3.
  { intro H. injection H as <- <-. split; [reflexivity|]. right. split; [discriminate|]. split.
    - apply andb_true_iff in E3 as [Ec E3]. cbn [forallb]. rewrite Ea, (Hcont c Ec). cbn [negb andb]. rewrite andb_true_r.
      repeat (apply orb_true_iff in E3 as [E3|E3]); apply andb_true_iff in E3 as [_ E3];
        first [apply Hcont; exact E3 | eapply Hb; [|exact E3]; lia].
    - intro x. cbn [app utf8_head]. rewrite Ea, E2, E3. reflexivity. }
  destruct s3 as [|d s4]; [discriminate|].
  destruct (cont c && cont d && _) eqn:E4; [|discriminate].
  intro H. injection H as <- <-. split; [reflexivity|]. right. split; [discriminate|]. split.
  - apply andb_true_iff in E4 as [Ec E4]. apply andb_true_iff in Ec as [Ec Ed]. cbn [forallb].
    rewrite Ea, (Hcont c Ec), (Hcont d Ed). cbn [negb andb]. rewrite andb_true_r.
    repeat (apply orb_true_iff in E4 as [E4|E4]); apply andb_true_iff in E4 as [_ E4];
      first [apply Hcont; exact E4 | eapply Hb; [|exact E4]; lia].
  - intro x. cbn [app utf8_head]. rewrite Ea, E2, E3, E4. reflexivity.
Qed.
Lemma escape_all_high h : forallb (fun c => negb (between 0 127 c)) h = true -> flat_map escape h = h.
Proof.
  induction h as [|c h IH]; cbn [forallb flat_map]; [reflexivity|]. intro H. apply andb_true_iff in H as [Hc H].
  apply negb_true_iff in Hc. rewrite (escape_high c Hc), (IH H). reflexivity.
Qed.
Lemma high_code c : between 0 127 c = false -> (128 <= code c)%N.
Proof. unfold between. intro H. apply andb_false_iff in H as [H|H]; apply N.leb_gt in H; lia. Qed.

Lemma utf8_head_more h x : utf8_head h = Some (h, []) -> utf8_head (h ++ x) = Some (h, x).
Proof.
  intros H. apply utf8_head_case in H as [_ [(c & -> & Hc)|(_ & _ & Hx)]]; [|apply Hx]. cbn [app utf8_head]. now rewrite Hc.
Qed.
Lemma hex4_more n ds x : four n ds -> hex4 (ds ++ x) = Some (n, x).
Proof.
  intros [Hl H]. destruct ds as [|a [|b [|c [|d [|]]]]]; try discriminate Hl. unfold hex4 in *. cbn [app].
  destruct (hexval a), (hexval b), (hexval c), (hexval d); try discriminate. now injection H as <-.
Qed.
Lemma read_spelled s t : spelled s t -> forall n r, length t < n -> read_str n (t ++ quote :: r) = Some (s, r).
Proof.
  induction 1 as [|c h s t Hh Hc H34 H92 _ IH|m e s t Hm _ IH|m ds s t Hf Hm _ IH|m hi lo ds es s t Hd He Hhi Hlo Hm _ IH]; intros n r Hn; (destruct n as [|n]; [cbn in Hn; lia|]).
  - reflexivity.
  - cbn [length] in Hn. rewrite app_length in Hn. cbn [app]. rewrite <- app_assoc. cbn [read_str].
    rewrite (proj2 (N.eqb_neq _ _) H34), (proj2 (N.eqb_neq _ _) H92), (proj2 (N.ltb_ge _ _) Hc). pose proof (utf8_head_more _ (t ++ quote :: r) Hh) as E. cbn [app] in E. rewrite E.
    rewrite (IH n r) by lia. reflexivity.
  - cbn [length] in Hn. cbn [app read_str]. change (code backslash =? 34)%N with false. change (code backslash =? 92)%N with true. cbv iota.
    assert (Hu : unescape (ch e :: t ++ quote :: r) = Some ([ch m], t ++ quote :: r)).
    { unfold short in Hm. cbn [In] in Hm. repeat (destruct Hm as [Hm|Hm]; [injection Hm as <- <-; reflexivity|]). destruct Hm. }
    rewrite Hu, (IH n r) by lia. reflexivity.
  - cbn [length] in Hn. rewrite app_length in Hn. cbn [app read_str]. change (code backslash =? 34)%N with false. change (code backslash =? 92)%N with true. cbv iota.
    assert (Hu : unescape ("u"%char :: (ds ++ t) ++ quote :: r) = Some (encode m, t ++ quote :: r)).
    { rewrite <- app_assoc. unfold unescape. change (code "u"%char) with 117%N. cbn [N.eqb orb Pos.eqb]. cbv zeta iota beta. rewrite (hex4_more m ds _ Hf).
      destruct ((55296 <=? m) && (m <=? 56319))%N eqn:E1; [apply andb_true_iff in E1 as [A B]; apply N.leb_le in A, B; lia|].
      destruct ((56320 <=? m) && (m <=? 57343))%N eqn:E2; [apply andb_true_iff in E2 as [A B]; apply N.leb_le in A, B; lia|]. reflexivity. }
    rewrite Hu, (IH n r) by lia. reflexivity.
  - cbn [length] in Hn. rewrite app_length in Hn. cbn [length] in Hn. rewrite app_length in Hn. cbn [app read_str].
    change (code backslash =? 34)%N with false. change (code backslash =? 92)%N with true. cbv iota.
    assert (Hu : unescape ("u"%char :: (ds ++ backslash :: "u"%char :: es ++ t) ++ quote :: r) = Some (encode m, t ++ quote :: r)).
    { rewrite <- app_assoc. unfold unescape. change (code "u"%char) with 117%N. cbn [N.eqb orb Pos.eqb]. cbv zeta iota beta. rewrite (hex4_more hi ds _ Hd).
      assert (E1 : ((55296 <=? hi) && (hi <=? 56319))%N = true) by (apply andb_true_iff; split; apply N.leb_le; lia). rewrite E1. cbn [app].
      change (code backslash =? 92)%N with true. change (117 =? 117)%N with true. cbn [andb]. rewrite <- app_assoc, (hex4_more lo es _ He).
      assert (E2 : ((56320 <=? lo) && (lo <=? 57343))%N = true) by (apply andb_true_iff; split; apply N.leb_le; lia). rewrite E2. now rewrite <- Hm. }
    rewrite Hu, (IH n r) by lia. reflexivity.
Qed.
Lemma read_quoted s t r : quoted s t -> exists b, t ++ r = quote :: b /\ read_str (length b) b = Some (s, r).
Proof.
  intros (b & Hb & ->). exists (b ++ quote :: r). split; [cbn [app]; now rewrite <- app_assoc|]. apply (read_spelled s b Hb). rewrite app_length. cbn. lia.
Qed.
(** The way the library writes is one of them. *)
Lemma spelled_ascii c s t : between 0 127 c = true -> spelled s t -> spelled (c :: s) (escape c ++ t).
Proof.
  intros Hc H. assert (Hp : (32 <= code c)%N -> code c <> 34%N -> code c <> 92%N -> spelled (c :: s) (c :: t)).
  { intros H1 H2 H3. apply (sp_plain c [] s t); auto. cbn [utf8_head]. now rewrite Hc. }
  assert (Hs : forall n e, code c = n -> In (n, e) short -> spelled (c :: s) (backslash :: ch e :: t)).
  { intros n e <- Hin. pose proof (sp_short _ e s t Hin H) as G. unfold ch at 1, code in G. now rewrite ascii_N_embedding in G. }
  unfold escape. cbv zeta.
  destruct (N.eqb_spec (code c) 34) as [E|N1]; [apply (Hs _ 34%N E); cbn; auto 10|].
  destruct (N.eqb_spec (code c) 92) as [E|N2]; [apply (Hs _ 92%N E); cbn; auto 10|].
  destruct (N.eqb_spec (code c) 8) as [E|N3]; [apply (Hs _ 98%N E); cbn; auto 10|].
  destruct (N.eqb_spec (code c) 9) as [E|N4]; [apply (Hs _ 116%N E); cbn; auto 10|].
  destruct (N.eqb_spec (code c) 10) as [E|N5]; [apply (Hs _ 110%N E); cbn; auto 10|].
  destruct (N.eqb_spec (code c) 12) as [E|N6]; [apply (Hs _ 102%N E); cbn; auto 10|].
  destruct (N.eqb_spec (code c) 13) as [E|N7]; [apply (Hs _ 114%N E); cbn; auto 12|].
  destruct (N.ltb_spec (code c) 32) as [Hl|Hl]; [|cbn [app]; now apply Hp].
  assert (G : four (code c) ["0"%char; "0"%char; hexdigit (code c / 16); hexdigit (code c mod 16)] /\ encode (code c) = [c]).
  { clear - Hl. destruct c as [[] [] [] [] [] [] [] []]; try (exfalso; vm_compute in Hl; discriminate Hl); (split; [split; reflexivity|reflexivity]). }
  destruct G as [G1 G2]. assert (Hr : (code c < 55296 \/ 57343 < code c)%N) by lia. pose proof (sp_four _ _ s t G1 Hr H) as G. rewrite G2 in G. exact G.
Qed.
Lemma spelled_dump k s : utf8_fuel k s = true -> spelled s (flat_map escape s).
Proof.
  revert s. induction k as [|k IH]; intros s H; (destruct s as [|c s]; [apply sp_end|]); [discriminate|].
  cbn [utf8_fuel] in H. destruct (utf8_head (c :: s)) as [[h s']|] eqn:E; [|discriminate].
  apply utf8_head_case in E as [Es [(c0 & -> & Hc)|(Hne & Hh & Hx)]]; rewrite Es.
  - cbn [app flat_map]. apply spelled_ascii; [exact Hc|now apply IH].
  - rewrite flat_map_app, (escape_all_high h Hh). destruct h as [|a h]; [congruence|]. cbn [app]. cbn [forallb] in Hh. apply andb_true_iff in Hh as [Ha _]. apply negb_true_iff, high_code in Ha.
    apply sp_plain; try lia; [specialize (Hx []); now rewrite app_nil_r in Hx|now apply IH].
Qed.
Lemma quoted_dump s : utf8 s = true -> quoted s (dump_str s).
Proof. intros H. exists (flat_map escape s). split; [now apply spelled_dump with (length s)|reflexivity]. Qed.
Lemma dump_str_app s r : dump_str s ++ r = quote :: (flat_map escape s ++ quote :: r).
Proof. unfold dump_str. cbn [app]. rewrite <- app_assoc. reflexivity. Qed.

(** ** Numbers *)
Lemma span_digits_spec s ds r : span_digits s = (ds, r) ->
  s = ds ++ r /\ forallb is_digit ds = true /\ match r with c :: _ => is_digit c = false | [] => True end.
Proof.
  revert ds r. induction s as [|c s IH]; cbn [span_digits]; intros ds r H.
  - injection H as <- <-. auto.
  - destruct (is_digit c) eqn:E.
    + destruct (span_digits s) as [a b]. injection H as <- <-. destruct (IH a b eq_refl) as (-> & Ha & Hb).
      split; [reflexivity|]. split; [cbn; rewrite E; exact Ha|exact Hb].
    + injection H as <- <-. auto.
Qed.
Lemma span_digits_app ds r : forallb is_digit ds = true -> match r with c :: _ => is_digit c = false | [] => True end ->
  span_digits (ds ++ r) = (ds, r).
Proof.
  induction ds as [|c ds IH]; cbn [forallb app span_digits]; intros H Hr.
  - destruct r as [|c r]; [reflexivity|]. cbn. rewrite Hr. reflexivity.
  - apply andb_true_iff in H as [-> H]. rewrite (IH H Hr). reflexivity.
Qed.
Lemma delim_digit r rest : delim rest -> match r with c :: _ => is_digit c = false | [] => True end ->
  match r ++ rest with c :: _ => is_digit c = false | [] => True end.
Proof. destruct r as [|c r]; cbn; [|auto]. destruct rest; cbn; [auto|]. intros (H & _) _. exact H. Qed.
Lemma span_ext s ds r rest : delim rest -> span_digits s = (ds, r) -> span_digits (s ++ rest) = (ds, r ++ rest).
Proof.
  intros Hd H. apply span_digits_spec in H as (-> & H1 & H2). rewrite <- app_assoc. apply span_digits_app; [exact H1|].
  now apply delim_digit.
Qed.
Lemma scan_int_ext s ds r rest : delim rest -> scan_int s = Some (ds, r) -> scan_int (s ++ rest) = Some (ds, r ++ rest).
Proof.
  intros Hd. destruct s as [|c s]; cbn [scan_int app]; [discriminate|].
  destruct (code c =? 48)%N; [intro H; injection H as <- <-; reflexivity|].
  destruct (between 49 57 c); [|discriminate]. intro H. injection H as H. f_equal. apply (span_ext (c :: s) ds r rest Hd H).
Qed.
Lemma scan_frac_ext s ds r rest : delim rest -> scan_frac s = Some (ds, r) -> scan_frac (s ++ rest) = Some (ds, r ++ rest).
Proof.
  intros Hd. destruct s as [|c s]; cbn [scan_frac app].
  - intro H. injection H as <- <-. destruct rest as [|c rest]; [reflexivity|]. cbn [app scan_frac].
    destruct Hd as (_ & H & _). rewrite (proj2 (N.eqb_neq _ _) H). reflexivity.
  - destruct (code c =? 46)%N; [|intro H; injection H as <- <-; reflexivity].
    destruct (span_digits s) as [a b] eqn:E. rewrite (span_ext s a b rest Hd E). destruct a; [discriminate|].
    intro H. injection H as <- <-. reflexivity.
Qed.
Lemma scan_exp_ext s ds r rest : delim rest -> scan_exp s = Some (ds, r) -> scan_exp (s ++ rest) = Some (ds, r ++ rest).
Proof.
  intros Hd. destruct s as [|c s]; cbn [scan_exp app].
  - intro H. injection H as <- <-. destruct rest as [|c rest]; [reflexivity|]. cbn [app scan_exp].
    destruct Hd as (_ & _ & H1 & H2). rewrite (proj2 (N.eqb_neq _ _) H1), (proj2 (N.eqb_neq _ _) H2). reflexivity.
  - destruct ((code c =? 101) || (code c =? 69))%N; [|intro H; injection H as <- <-; reflexivity].
    destruct s as [|g s]; [discriminate|]. cbn [app].
    destruct ((code g =? 43) || (code g =? 45))%N.
    + destruct (span_digits s) as [a b] eqn:E. rewrite (span_ext s a b rest Hd E). destruct a; [discriminate|].
      intro H. injection H as <- <-. reflexivity.
    + destruct (span_digits (g :: s)) as [a b] eqn:E. pose proof (span_ext (g :: s) a b rest Hd E) as E'. cbn [app] in E'. rewrite E'.
      destruct a; [discriminate|]. intro H. injection H as <- <-. reflexivity.
Qed.
Lemma scan_number_ext s neg ds more r rest : delim rest -> scan_number s = Some (neg, ds, more, r) ->
  scan_number (s ++ rest) = Some (neg, ds, more, r ++ rest).
Proof.
  intros Hd. unfold scan_number.
  destruct s as [|c s]; [cbn; discriminate|]. cbn [app].
  assert (G : forall (n0 : bool) s1, match scan_int s1 with
      | Some (ds0, s2) => match scan_frac s2 with
        | Some (fr, s3) => match scan_exp s3 with Some (ex, s4) => Some (n0, ds0, fr ++ ex, s4) | None => None end
        | None => None end | None => None end = Some (neg, ds, more, r) ->
      match scan_int (s1 ++ rest) with
      | Some (ds0, s2) => match scan_frac s2 with
        | Some (fr, s3) => match scan_exp s3 with Some (ex, s4) => Some (n0, ds0, fr ++ ex, s4) | None => None end
        | None => None end | None => None end = Some (neg, ds, more, r ++ rest)).
  { intros n0 s1. destruct (scan_int s1) as [[a b]|] eqn:E1; [|discriminate]. rewrite (scan_int_ext _ _ _ rest Hd E1).
    destruct (scan_frac b) as [[a2 b2]|] eqn:E2; [|discriminate]. rewrite (scan_frac_ext _ _ _ rest Hd E2).
    destruct (scan_exp b2) as [[a3 b3]|] eqn:E3; [|discriminate]. rewrite (scan_exp_ext _ _ _ rest Hd E3).
    intro H. injection H as <- <- <- <-. reflexivity. }
  destruct (code c =? 45)%N.
  - apply G.
  - apply (G false (c :: s)).
Qed.
(** What was scanned is the text. *)
Lemma scan_number_text s neg ds more r : scan_number s = Some (neg, ds, more, r) ->
  s = sign_text neg ++ ds ++ more ++ r /\ ds <> [] /\ forallb is_digit ds = true.
Proof.
  unfold scan_number.
  assert (Gi : forall s a b, scan_int s = Some (a, b) -> s = a ++ b /\ a <> [] /\ forallb is_digit a = true).
  { intros [|c s0] a b; cbn [scan_int]; [discriminate|]. destruct (code c =? 48)%N eqn:E0.
    - intro H. injection H as <- <-. split; [reflexivity|]. split; [discriminate|]. apply N.eqb_eq in E0. cbn. unfold is_digit, between. rewrite E0. reflexivity.
    - destruct (between 49 57 c) eqn:Eb; [|discriminate]. intro H'. assert (H : span_digits (c :: s0) = (a, b)) by congruence. clear H'.
      apply span_digits_spec in H as (H & Ha & Hb). split; [exact H|]. split; [|exact Ha].
      intros ->. cbn in H. subst b. unfold is_digit, between in *. apply andb_true_iff in Eb as [E1 E2]. apply N.leb_le in E1, E2.
      apply andb_false_iff in Hb as [Hb|Hb]; apply N.leb_gt in Hb; lia. }
  assert (Gf : forall s a b, scan_frac s = Some (a, b) -> s = a ++ b).
  { intros [|c s0] a b; cbn [scan_frac]; [intro H; injection H as <- <-; reflexivity|]. destruct (code c =? 46)%N; [|intro H; injection H as <- <-; reflexivity].
    destruct (span_digits s0) as [x y] eqn:E. destruct x; [discriminate|]. intro H. injection H as <- <-.
    apply span_digits_spec in E as (-> & _). reflexivity. }
  assert (Ge : forall s a b, scan_exp s = Some (a, b) -> s = a ++ b).
  { intros [|c s0] a b; cbn [scan_exp]; [intro H; injection H as <- <-; reflexivity|].
    destruct ((code c =? 101) || (code c =? 69))%N; [|intro H; injection H as <- <-; reflexivity].
    destruct s0 as [|g s0]; [discriminate|]. destruct ((code g =? 43) || (code g =? 45))%N.
    - destruct (span_digits s0) as [x y] eqn:E. destruct x; [discriminate|]. intro H. injection H as <- <-.
      apply span_digits_spec in E as (-> & _). reflexivity.
    - destruct (span_digits (g :: s0)) as [x y] eqn:E. destruct x; [discriminate|]. intro H. injection H as <- <-.
      apply span_digits_spec in E as (E & _). rewrite E. reflexivity. }
  assert (G : forall (n0 : bool) s1, match scan_int s1 with
      | Some (ds0, s2) => match scan_frac s2 with
        | Some (fr, s3) => match scan_exp s3 with Some (ex, s4) => Some (n0, ds0, fr ++ ex, s4) | None => None end
        | None => None end | None => None end = Some (neg, ds, more, r) -> n0 = neg /\ s1 = ds ++ more ++ r /\ ds <> [] /\ forallb is_digit ds = true).
  { intros n0 s1. destruct (scan_int s1) as [[a b]|] eqn:E1; [|discriminate].
    destruct (scan_frac b) as [[a2 b2]|] eqn:E2; [|discriminate].
    destruct (scan_exp b2) as [[a3 b3]|] eqn:E3; [|discriminate].
    intro H. injection H as <- <- <- <-. apply Gi in E1 as (-> & H1 & H2). apply Gf in E2. apply Ge in E3. subst. repeat split; auto.
    rewrite <- app_assoc. reflexivity. }
  destruct s as [|c s]; [cbn; discriminate|]. destruct (code c =? 45)%N eqn:Ec.
  - intro H. apply G in H as (<- & -> & H1 & H2). split; [|auto]. cbn [sign_text app]. f_equal. apply code_inj. apply N.eqb_eq. exact Ec.
  - intro H. apply G in H as (<- & -> & H1 & H2). auto.
Qed.

Lemma uint_is_digit d : forallb is_digit (uint_digits d) = true.
Proof. induction d; cbn; auto. Qed.
Lemma uint_value_acc d p : fold_left (fun a c => (10 * a + (code c - 48))%N) (uint_digits d) (Npos p) = Npos (Pos.of_uint_acc d p).
Proof.
  revert p. induction d as [|d IH|d IH|d IH|d IH|d IH|d IH|d IH|d IH|d IH|d IH]; intro p;
    cbn [uint_digits fold_left Pos.of_uint_acc]; [reflexivity|..]; rewrite <- IH; f_equal;
    match goal with |- context [code ?c] => let v := eval vm_compute in (code c) in change (code c) with v end; rewrite (Pos.mul_comm p) || idtac; lia.
Qed.
Lemma uint_value d : digits_value (uint_digits d) = N.of_uint d.
Proof.
  unfold digits_value, N.of_uint. induction d as [|d IH|d IH|d IH|d IH|d IH|d IH|d IH|d IH|d IH|d IH]; [reflexivity|exact IH|..];
    cbn [uint_digits fold_left Pos.of_uint]; rewrite <- uint_value_acc; reflexivity.
Qed.
Lemma dump_nat_scan n rest : delim rest -> scan_int (dump_nat n ++ rest) = Some (dump_nat n, rest).
Proof.
  intro Hd. unfold dump_nat.
  assert (Hu : Decimal.unorm (N.to_uint n) = N.to_uint n).
  { rewrite <- DecimalN.Unsigned.to_of. rewrite DecimalN.Unsigned.of_to. reflexivity. }
  assert (G : forall d, unorm d = d -> scan_int (uint_digits d ++ rest) = Some (uint_digits d, rest)).
  { intros d Hdd.
    assert (Hs : forall c s', is_digit c = true -> forallb is_digit s' = true -> between 49 57 c = true -> (code c =? 48)%N = false ->
      scan_int ((c :: s') ++ rest) = Some (c :: s', rest)).
    { intros c s' Hc Hs' Hb H0. cbn [app scan_int]. rewrite H0, Hb. f_equal.
      apply (span_digits_app (c :: s') rest); [cbn; rewrite Hc, Hs'; reflexivity|].
      apply (delim_digit [] rest Hd). exact I. }
    destruct d as [|d|d|d|d|d|d|d|d|d|d]; cbn [uint_digits]; try (apply Hs; try reflexivity; apply uint_is_digit).
    - discriminate.
    - assert (Ez : d = Nil).
      { assert (L : Decimal.nb_digits (nzhead d) <= Decimal.nb_digits d) by (clear; induction d; cbn; lia).
        unfold unorm in Hdd. change (nzhead (D0 d)) with (nzhead d) in Hdd.
        destruct (nzhead d) eqn:En; [injection Hdd; auto|..]; exfalso; rewrite Hdd in L; cbn in L; lia. }
      subst d. reflexivity. }
  apply G. exact Hu.
Qed.

(** ** Documents *)
Lemma insert_last {V} k (v : V) m : Forall (fun e => str_ltb (fst e) k = true) m -> minsert str_ltb k v m = m ++ [(k, v)].
Proof.
  induction 1 as [|[k' v'] m H _ IH]; cbn [minsert app]; [reflexivity|]. cbn in H.
  rewrite (ltb_asym _ str_order _ _ H), H, IH. reflexivity.
Qed.

Section Read.
Context {F : Type} (fw : F -> bytes) (fr : bytes -> option F).
Notation val := (val fw fr). Notation items := (items fw fr). Notation members := (members fw fr). Notation wf := (wf fw fr).
Notation read_value := (read_value fr). Notation read_items := (read_items fr). Notation read_members := (read_members fr).

Scheme val_mind := Minimality for Json_spec.val Sort Prop
  with items_mind := Minimality for Json_spec.items Sort Prop
  with members_mind := Minimality for Json_spec.members Sort Prop.
Combined Scheme grammar_mind from val_mind, items_mind, members_mind.

Lemma read_value_S n' s : read_value (S n') s =
      match skip_ws s with
      | [] => None
      | c :: r =>
          let k := code c in
          if (k =? 91)%N then
            match skip_ws r with
            | c' :: r' => if (code c' =? 93)%N then Some (JArr [], r')
                          else match read_value n' r with
                               | Some (v, r1) => match read_items n' r1 with Some (l, r2) => Some (JArr (v :: l), r2) | None => None end
                               | None => None
                               end
            | [] => None
            end
          else if (k =? 123)%N then
            match skip_ws r with
            | c' :: r' => if (code c' =? 125)%N then Some (JObj [], r')
                          else match read_members n' [] r with Some (m, r2) => Some (JObj m, r2) | None => None end
            | [] => None
            end
          else if (k =? 34)%N then match read_str (length r) r with Some (t, r') => Some (JStr t, r') | None => None end
          else if (k =? 45)%N || is_digit c then
            match scan_number (c :: r) with
            | Some (neg, ds, more, r') => match number fr neg ds more with Some v => Some (v, r') | None => None end
            | None => None
            end
          else match strip (text "null") (c :: r) with
               | Some r' => Some (JNull, r')
               | None => match strip (text "true") (c :: r) with
                         | Some r' => Some (JBool true, r')
                         | None => match strip (text "false") (c :: r) with Some r' => Some (JBool false, r') | None => None end
                         end
               end
      end.
Proof. reflexivity. Qed.
Lemma read_items_S n' s : read_items (S n') s =
      match skip_ws s with
      | [] => None
      | c :: r =>
          if (code c =? 93)%N then Some ([], r)
          else if (code c =? 44)%N then
            match read_value n' r with
            | Some (v, r1) => match read_items n' r1 with Some (l, r2) => Some (v :: l, r2) | None => None end
            | None => None
            end
          else None
      end.
Proof. reflexivity. Qed.
Lemma read_members_S n' m s : read_members (S n') m s =
      match skip_ws s with
      | c :: r =>
          if (code c =? 34)%N then
            match read_str (length r) r with
            | Some (key, r1) =>
                match skip_ws r1 with
                | c1 :: r2 =>
                    if (code c1 =? 58)%N then
                      match read_value n' r2 with
                      | Some (v, r3) =>
                          match skip_ws r3 with
                          | c2 :: r4 => if (code c2 =? 125)%N then Some (minsert str_ltb key v m, r4)
                                        else if (code c2 =? 44)%N then read_members n' (minsert str_ltb key v m) r4
                                        else None
                          | [] => None
                          end
                      | None => None
                      end
                    else None
                | [] => None
                end
            | None => None
            end
          else None
      | [] => None
      end.
Proof. reflexivity. Qed.

Lemma number_int z : int_range z ->
  number fr (z <? 0)%Z (dump_nat (Z.abs_N z)) [] = Some (JInt z).
Proof.
  intros [H1 H2]. unfold number. cbn zeta.
  replace (digits_value (dump_nat (Z.abs_N z))) with (Z.abs_N z).
  2:{ unfold dump_nat. rewrite uint_value, DecimalN.Unsigned.of_to. reflexivity. }
  destruct (Z.ltb_spec z 0).
  - rewrite (proj2 (N.leb_le _ _)) by lia. do 2 f_equal. lia.
  - rewrite (proj2 (N.leb_le _ _)) by lia. do 2 f_equal. lia.
Qed.
Lemma dump_int_text z : dump_int z = sign_text (z <? 0)%Z ++ dump_nat (Z.abs_N z).
Proof. destruct z; reflexivity. Qed.
Lemma dump_nat_head n : exists c t, dump_nat n = c :: t /\ is_digit c = true.
Proof.
  pose proof (dump_nat_scan n [] I) as H. rewrite app_nil_r in H. destruct (dump_nat n) as [|c t] eqn:E; [discriminate|].
  exists c, t. split; [reflexivity|]. unfold dump_nat in E. pose proof (uint_is_digit (N.to_uint n)) as G. rewrite E in G. cbn in G.
  apply andb_true_iff in G as [G _]. exact G.
Qed.
Lemma digit_code c : is_digit c = true -> (48 <= code c <= 57)%N.
Proof. unfold is_digit, between. intro H. apply andb_true_iff in H as [H1 H2]. apply N.leb_le in H1, H2. lia. Qed.
Lemma scan_dump_int z rest : delim rest -> scan_number (dump_int z ++ rest) = Some ((z <? 0)%Z, dump_nat (Z.abs_N z), [], rest).
Proof.
  intro Hd. rewrite dump_int_text. unfold scan_number.
  assert (G : forall neg : bool, match scan_int (dump_nat (Z.abs_N z) ++ rest) with
      | Some (ds0, s2) => match scan_frac s2 with
        | Some (fr, s3) => match scan_exp s3 with Some (ex, s4) => Some (neg, ds0, fr ++ ex, s4) | None => None end
        | None => None end | None => None end = Some (neg, dump_nat (Z.abs_N z), [], rest)).
  { intro neg. rewrite dump_nat_scan by exact Hd.
    rewrite (scan_frac_ext [] [] [] rest Hd eq_refl : scan_frac rest = _). cbn [app].
    rewrite (scan_exp_ext [] [] [] rest Hd eq_refl : scan_exp rest = _). reflexivity. }
  destruct (z <? 0)%Z; cbn [sign_text app].
  - apply G.
  - destruct (dump_nat_head (Z.abs_N z)) as (c & t & E & Hc). rewrite E in *. cbn [app] in *. apply digit_code in Hc.
    rewrite (proj2 (N.eqb_neq _ _)) by lia. apply G.
Qed.
(** The first character of a value. *)
Definition numeric (c : ascii) : Prop := code c = 45%N \/ is_digit c = true.
Lemma number_head t neg ds more r : scan_number t = Some (neg, ds, more, r) -> exists c t', t = c :: t' /\ numeric c.
Proof.
  intro H. apply scan_number_text in H as (-> & Hne & Hd). destruct neg; cbn [sign_text app].
  - eexists. eexists. split; [reflexivity|]. left. reflexivity.
  - destruct ds as [|c ds]; [congruence|]. cbn [app]. eexists. eexists. split; [reflexivity|]. right. cbn in Hd. apply andb_true_iff in Hd as [Hd _]. exact Hd.
Qed.
Lemma dump_int_head z : exists c t, dump_int z = c :: t /\ numeric c.
Proof. pose proof (scan_dump_int z [] I) as H. apply number_head in H. rewrite app_nil_r in H. exact H. Qed.

Lemma read_number n w c t neg ds more r v : ws w -> numeric c -> scan_number (c :: t) = Some (neg, ds, more, r) ->
  number fr neg ds more = Some v -> read_value (S n) (w ++ c :: t) = Some (v, r).
Proof.
  intros Hw Hc Hs Hv. rewrite read_value_S.
  assert (Hr : (48 <= code c <= 57 \/ code c = 45)%N) by (destruct Hc as [Hc|Hc]; [right; exact Hc|left; apply digit_code; exact Hc]).
  rewrite skip_ws_app by exact Hw. rewrite skip_ws_head.
  2:{ unfold is_ws. repeat (rewrite (proj2 (N.eqb_neq _ _)) by lia). reflexivity. }
  cbn zeta.
  rewrite (proj2 (N.eqb_neq (code c) 91)), (proj2 (N.eqb_neq (code c) 123)), (proj2 (N.eqb_neq (code c) 34)) by lia.
  replace ((code c =? 45)%N || is_digit c) with true.
  2:{ symmetry. apply orb_true_iff. destruct Hc as [->|Hc]; [left; reflexivity|right; exact Hc]. }
  rewrite Hs, Hv. reflexivity.
Qed.

Definition first_ok (c : ascii) : Prop := is_ws c = false /\ code c <> 93%N /\ code c <> 239%N /\ code c <> 0%N.
Lemma numeric_first c : numeric c -> first_ok c.
Proof.
  intro Hc. assert (Hr : (48 <= code c <= 57 \/ code c = 45)%N) by (destruct Hc as [Hc|Hc]; [right; exact Hc|left; apply digit_code; exact Hc]).
  split; [unfold is_ws; repeat (rewrite (proj2 (N.eqb_neq _ _)) by lia); reflexivity|]. lia.
Qed.
Lemma val_first j t : val j t -> exists c t', t = c :: t' /\ first_ok c.
Proof.
  intro H. destruct H; try (eexists; eexists; split; [reflexivity|]; repeat split; discriminate).
  - destruct (dump_int_head z) as (c & t & -> & Hc). eauto using numeric_first.
  - destruct H as (_ & neg & ds & more & Hs & _). apply number_head in Hs as (c & t & -> & Hc). eauto using numeric_first.
  - destruct H as (b & _ & ->). eexists; eexists; split; [reflexivity|]; repeat split; discriminate.
Qed.
Lemma delim_comma r : delim (","%char :: r). Proof. repeat split; discriminate. Qed.
Lemma delim_close r : delim ("]"%char :: r). Proof. repeat split; discriminate. Qed.
Lemma delim_brace r : delim ("}"%char :: r). Proof. repeat split; discriminate. Qed.

Lemma read_grammar :
  (forall j t, val j t -> forall n w rest, ws w -> delim rest -> length t <= n -> read_value n (w ++ t ++ rest) = Some (j, rest))
  /\ (forall l t, items l t ->
        (forall rest, exists c r, skip_ws (t ++ rest) = c :: r /\ code c <> 93%N) /\
        forall n rest, length t <= n -> exists j l' r1, l = j :: l' /\ read_value n (t ++ "]"%char :: rest) = Some (j, r1)
          /\ read_items n r1 = Some (l', rest))
  /\ (forall m t, members m t -> (forall rest, exists r, skip_ws (t ++ rest) = quote :: r) /\
        forall n m0 rest, length t <= n -> ascending (m0 ++ m) ->
        read_members n m0 (t ++ "}"%char :: rest) = Some (m0 ++ m, rest)).
Proof.
  apply grammar_mind.
  - (* null *) intros n w rest Hw Hd Hn. destruct n; [cbn in Hn; lia|]. rewrite read_value_S. rewrite skip_ws_app by exact Hw. reflexivity.
  - intros n w rest Hw Hd Hn. destruct n; [cbn in Hn; lia|]. rewrite read_value_S. rewrite skip_ws_app by exact Hw. reflexivity.
  - intros n w rest Hw Hd Hn. destruct n; [cbn in Hn; lia|]. rewrite read_value_S. rewrite skip_ws_app by exact Hw. reflexivity.
  - (* int *) intros z Hz n w rest Hw Hd Hn. pose proof (scan_dump_int z rest Hd) as Hs.
    destruct (dump_int_head z) as (c & t & E & Hc). rewrite E in *. cbn in Hn. destruct n; [lia|].
    cbn [app] in *. eapply read_number; eauto. apply number_int. exact Hz.
  - (* float *) intros f (Hf & neg & ds & more & Hs & Hm) n w rest Hw Hd Hn.
    pose proof (scan_number_ext _ _ _ _ _ rest Hd Hs) as Hs'. pose proof (scan_number_text _ _ _ _ _ Hs) as (Ht & _).
    destruct (number_head _ _ _ _ _ Hs) as (c & t & E & Hc). rewrite E in Hs', Hn. destruct n; [cbn in Hn; lia|]. rewrite E. cbn [app] in *.
    eapply read_number; eauto. unfold number. destruct more as [|x more]; [congruence|].
    rewrite app_nil_r in Ht. rewrite <- Ht. unfold read_float. rewrite Hf. reflexivity.
  - (* string *) intros s t Hq n w rest Hw Hd Hn. destruct n; [destruct Hq as (b & _ & ->); cbn in Hn; lia|]. destruct (read_quoted s t rest Hq) as (b & -> & Hs).
    rewrite read_value_S. rewrite skip_ws_app by exact Hw. rewrite skip_ws_head by reflexivity. cbn zeta.
    change (code quote) with 34%N. change (34 =? 91)%N with false. change (34 =? 123)%N with false. change (34 =? 34)%N with true. cbv iota.
    rewrite Hs. reflexivity.
  - (* [] *) intros w0 Hw0 n w rest Hw Hd Hn. destruct n; [cbn in Hn; lia|]. cbn [app].
    rewrite read_value_S. rewrite skip_ws_app by exact Hw. rewrite skip_ws_head by reflexivity. cbn zeta.
    change (code "["%char) with 91%N. change (91 =? 91)%N with true. cbv iota.
    rewrite <- app_assoc, skip_ws_app by exact Hw0. cbn [app]. rewrite skip_ws_head by reflexivity. reflexivity.
  - (* array *) intros l t _ [Hst IH] n w rest Hw Hd Hn. destruct n; [cbn in Hn; lia|]. cbn [app length] in *. rewrite app_length in Hn. cbn in Hn.
    rewrite read_value_S. rewrite skip_ws_app by exact Hw. rewrite skip_ws_head by reflexivity. cbn zeta.
    change (code "["%char) with 91%N. change (91 =? 91)%N with true. cbv iota.
    rewrite <- app_assoc. cbn [app]. destruct (Hst ("]"%char :: rest)) as (c & r & -> & Hc).
    rewrite (proj2 (N.eqb_neq _ _) Hc). destruct (IH n rest ltac:(lia)) as (j & l' & r1 & -> & E1 & E2). rewrite E1. cbv beta iota. rewrite E2. reflexivity.
  - (* {} *) intros w0 Hw0 n w rest Hw Hd Hn. destruct n; [cbn in Hn; lia|]. cbn [app].
    rewrite read_value_S. rewrite skip_ws_app by exact Hw. rewrite skip_ws_head by reflexivity. cbn zeta.
    change (code "{"%char) with 123%N. change (123 =? 91)%N with false. change (123 =? 123)%N with true. cbv iota.
    rewrite <- app_assoc, skip_ws_app by exact Hw0. cbn [app]. rewrite skip_ws_head by reflexivity. reflexivity.
  - (* object *) intros m t Ha _ [Hst IH] n w rest Hw Hd Hn. destruct n; [cbn in Hn; lia|]. cbn [app length] in *. rewrite app_length in Hn. cbn in Hn.
    rewrite read_value_S. rewrite skip_ws_app by exact Hw. rewrite skip_ws_head by reflexivity. cbn zeta.
    change (code "{"%char) with 123%N. change (123 =? 91)%N with false. change (123 =? 123)%N with true. cbv iota.
    rewrite <- app_assoc. cbn [app]. destruct (Hst ("}"%char :: rest)) as (r & ->).
    change (code quote =? 125)%N with false. cbv iota. rewrite (IH n [] rest); [reflexivity|lia|exact Ha].
  - (* one item *) intros j t w1 w2 Hw1 Hw2 Hv IH. destruct (val_first _ _ Hv) as (c & t' & -> & Hf). split.
    + intro rest. exists c, (t' ++ w2 ++ rest). rewrite <- app_assoc, skip_ws_app by exact Hw1. cbn [app]. rewrite <- app_assoc, skip_ws_head by apply Hf.
      split; [reflexivity|apply Hf].
    + intros n rest Hn. rewrite !app_length in Hn. exists j, [], (w2 ++ "]"%char :: rest). split; [reflexivity|]. split.
      * rewrite <- !app_assoc. apply IH; [exact Hw1|apply ws_delim; [exact Hw2|apply delim_close]|lia].
      * destruct n; [cbn in Hn; lia|]. rewrite read_items_S. rewrite skip_ws_app by exact Hw2. rewrite skip_ws_head by reflexivity. reflexivity.
  - (* more items *) intros j t l t2 w1 w2 Hw1 Hw2 Hv IHv _ [_ IH]. destruct (val_first _ _ Hv) as (c & t' & -> & Hf). split.
    + intro rest. eexists c, _. rewrite <- app_assoc, skip_ws_app by exact Hw1. cbn [app]. rewrite skip_ws_head by apply Hf.
      split; [reflexivity|apply Hf].
    + intros n rest Hn. rewrite !app_length in Hn. cbn [length] in Hn. exists j, l, (w2 ++ ","%char :: t2 ++ "]"%char :: rest).
      split; [reflexivity|]. split.
      * repeat (rewrite <- !app_assoc; cbn [app]). apply (IHv n w1); [exact Hw1|apply ws_delim; [exact Hw2|apply delim_comma]|cbn [length]; lia].
      * destruct n; [lia|]. rewrite read_items_S. rewrite skip_ws_app by exact Hw2. rewrite skip_ws_head by reflexivity.
        change (code ","%char) with 44%N. change (44 =? 93)%N with false. change (44 =? 44)%N with true. cbv iota.
        destruct (IH n rest ltac:(lia)) as (j2 & l2 & r1 & -> & E1 & E2). rewrite E1. cbv beta iota. rewrite E2. reflexivity.
  - (* one member *) intros k q j t w1 w2 w3 w4 H1 H2 H3 H4 Hk Hv IH. split.
    + intro rest. rewrite <- app_assoc, skip_ws_app by exact H1. rewrite <- app_assoc. destruct Hk as (bk & _ & ->). cbn [app]. rewrite skip_ws_head by reflexivity. eauto.
    + intros n m0 rest Hn Ha. rewrite !app_length in Hn. cbn [length] in Hn. rewrite !app_length in Hn.
      destruct n; [lia|]. rewrite read_members_S. rewrite <- app_assoc, skip_ws_app by exact H1.
      repeat (rewrite <- !app_assoc; cbn [app]). match goal with |- context [q ++ ?x] => destruct (read_quoted k q x Hk) as (bk & -> & Ek) end. rewrite skip_ws_head by reflexivity.
      change (code quote =? 34)%N with true. cbv iota. rewrite Ek.
      rewrite skip_ws_app by exact H2. rewrite skip_ws_head by reflexivity. change (code ":"%char =? 58)%N with true. cbv iota.
      rewrite IH; [|exact H3|apply ws_delim; [exact H4|apply delim_brace]|destruct t as [|? ?]; [apply val_first in Hv as (? & ? & ? & _); discriminate|cbn [length] in *; lia]].
      rewrite skip_ws_app by exact H4. rewrite skip_ws_head by reflexivity. change (code "}"%char =? 125)%N with true. cbv iota.
      rewrite insert_last; [reflexivity|]. clear - Ha. unfold ascending in Ha. induction m0 as [|x m0 IHm]; [constructor|].
      cbn in Ha. inversion Ha as [|? ? Hs Hf]; subst. constructor; [|apply IHm; exact Hs]. rewrite Forall_app in Hf. destruct Hf as [_ Hf]. inversion Hf; assumption.
  - (* more members *) intros k q j t m t2 w1 w2 w3 w4 H1 H2 H3 H4 Hk Hv IHv _ [_ IH]. split.
    + intro rest. rewrite <- app_assoc, skip_ws_app by exact H1. rewrite <- app_assoc. destruct Hk as (bk & _ & ->). cbn [app]. rewrite skip_ws_head by reflexivity. eauto.
    + intros n m0 rest Hn Ha. rewrite !app_length in Hn. cbn [length] in Hn. rewrite !app_length in Hn. cbn [length] in Hn.
      destruct n; [lia|]. rewrite read_members_S. rewrite <- app_assoc, skip_ws_app by exact H1.
      repeat (rewrite <- !app_assoc; cbn [app]). match goal with |- context [q ++ ?x] => destruct (read_quoted k q x Hk) as (bk & -> & Ek) end. rewrite skip_ws_head by reflexivity.
      change (code quote =? 34)%N with true. cbv iota. rewrite Ek.
      rewrite skip_ws_app by exact H2. rewrite skip_ws_head by reflexivity. change (code ":"%char =? 58)%N with true. cbv iota.
      rewrite IHv; [|exact H3|apply ws_delim; [exact H4|apply delim_comma]|lia].
      rewrite skip_ws_app by exact H4. rewrite skip_ws_head by reflexivity. change (code ","%char =? 125)%N with false. change (code ","%char =? 44)%N with true. cbv iota.
      rewrite insert_last.
      * change ((k, j) :: m) with ([(k, j)] ++ m) in *. rewrite app_assoc in *. apply IH; [lia|exact Ha].
      * clear - Ha. unfold ascending in Ha. induction m0 as [|x m0 IHm]; [constructor|].
        cbn in Ha. inversion Ha as [|? ? Hs Hf]; subst. constructor; [|apply IHm; exact Hs]. rewrite Forall_app in Hf. destruct Hf as [_ Hf]. inversion Hf; assumption.
Qed.

(** ** No NUL in the text *)
Definition nz (c : ascii) : bool := negb (code c =? 0)%N.
Lemma to_nul_id t : forallb nz t = true -> to_nul t = t.
Proof.
  induction t as [|c t IH]; cbn [forallb to_nul]; [reflexivity|]. intro H. apply andb_true_iff in H as [Hc H].
  apply negb_true_iff in Hc. rewrite Hc, (IH H). reflexivity.
Qed.
Lemma ws_nz w : ws w -> forallb nz w = true.
Proof.
  unfold ws. induction w as [|c w IH]; cbn [forallb]; [reflexivity|]. intro H. apply andb_true_iff in H as [Hc H]. rewrite (IH H).
  unfold nz. destruct (N.eqb_spec (code c) 0) as [E|E]; [|reflexivity]. unfold is_ws in Hc. rewrite E in Hc. discriminate.
Qed.
Lemma escape_nz c : forallb nz (escape c) = true.
Proof. destruct c as [[] [] [] [] [] [] [] []]; reflexivity. Qed.
Lemma high_nz h : forallb (fun c => negb (between 0 127 c)) h = true -> forallb nz h = true.
Proof.
  intros H. rewrite forallb_forall in *. intros c Hc. specialize (H c Hc). apply negb_true_iff, high_code in H. unfold nz. apply negb_true_iff, N.eqb_neq. lia.
Qed.
Lemma hexval_nz c : hexval c <> None -> nz c = true.
Proof. destruct c as [[] [] [] [] [] [] [] []]; vm_compute; congruence. Qed.
Lemma four_nz n ds : four n ds -> forallb nz ds = true.
Proof.
  intros [Hl H]. destruct ds as [|a [|b [|c [|d [|]]]]]; try discriminate Hl. unfold hex4 in H.
  destruct (hexval a) eqn:Ea, (hexval b) eqn:Eb, (hexval c) eqn:Ec, (hexval d) eqn:Ed; try discriminate. cbn [forallb]. rewrite !hexval_nz by congruence. reflexivity.
Qed.
Lemma spelled_nz s t : spelled s t -> forallb nz t = true.
Proof.
  induction 1 as [|c h s t Hh Hc H34 H92 _ IH|m e s t Hm _ IH|m ds s t Hf Hm _ IH|m hi lo ds es s t Hd He Hhi Hlo Hm _ IH]; repeat (rewrite ?forallb_app; cbn [forallb]); rewrite ?IH.
  - reflexivity.
  - assert (Hn : nz c = true) by (unfold nz; apply negb_true_iff, N.eqb_neq; lia). rewrite Hn.
    apply utf8_head_case in Hh as [_ [(c0 & E & _)|(_ & Hh & _)]]; [injection E as -> ->; reflexivity|]. cbn [forallb] in Hh. apply andb_true_iff in Hh as [_ Hh]. now rewrite (high_nz h Hh).
  - unfold short in Hm. cbn [In] in Hm. repeat (destruct Hm as [Hm|Hm]; [injection Hm as <- <-; reflexivity|]). destruct Hm.
  - now rewrite (four_nz m ds Hf).
  - now rewrite (four_nz _ ds Hd), (four_nz _ es He).
Qed.
Lemma quoted_nz s t : quoted s t -> forallb nz t = true.
Proof. intros (b & Hb & ->). cbn [forallb]. rewrite forallb_app, (spelled_nz _ _ Hb). reflexivity. Qed.
Lemma digits_nz ds : forallb is_digit ds = true -> forallb nz ds = true.
Proof.
  induction ds as [|c ds IH]; cbn [forallb]; [reflexivity|]. intro H. apply andb_true_iff in H as [Hc H]. rewrite (IH H).
  apply digit_code in Hc. unfold nz. rewrite (proj2 (N.eqb_neq _ _)) by lia. reflexivity.
Qed.
Lemma scan_nz s neg ds more r : scan_number s = Some (neg, ds, more, r) -> forallb nz (sign_text neg ++ ds ++ more) = true.
Proof.
  intro H. pose proof (scan_number_text _ _ _ _ _ H) as (_ & _ & Hd). rewrite !forallb_app, (digits_nz ds Hd).
  replace (forallb nz (sign_text neg)) with true by (destruct neg; reflexivity). cbn [andb]. clear Hd.
  assert (Hn : forall c k, (code c =? k)%N = true -> k <> 0%N -> nz c = true).
  { intros c k E Hk. apply N.eqb_eq in E. unfold nz. rewrite E. rewrite (proj2 (N.eqb_neq _ _)) by lia. reflexivity. }
  assert (Gf : forall s a b, scan_frac s = Some (a, b) -> forallb nz a = true).
  { intros [|c s0] a b; cbn [scan_frac]; [intro E; injection E as <- <-; reflexivity|]. destruct (code c =? 46)%N eqn:Ec; [|intro E; injection E as <- <-; reflexivity].
    destruct (span_digits s0) as [x y] eqn:E. destruct x; [discriminate|]. intro E'. injection E' as <- <-.
    apply span_digits_spec in E as (_ & E & _). cbn [forallb]. rewrite (Hn c _ Ec) by lia. apply digits_nz in E. exact E. }
  assert (Ge : forall s a b, scan_exp s = Some (a, b) -> forallb nz a = true).
  { intros [|c s0] a b; cbn [scan_exp]; [intro E; injection E as <- <-; reflexivity|].
    destruct ((code c =? 101) || (code c =? 69))%N eqn:Ec; [|intro E; injection E as <- <-; reflexivity].
    assert (Hc : nz c = true) by (apply orb_true_iff in Ec as [Ec|Ec]; apply (Hn _ _ Ec); lia).
    destruct s0 as [|g s0]; [discriminate|]. destruct ((code g =? 43) || (code g =? 45))%N eqn:Eg.
    - assert (Hg : nz g = true) by (apply orb_true_iff in Eg as [Eg|Eg]; apply (Hn _ _ Eg); lia).
      destruct (span_digits s0) as [x y] eqn:E. destruct x; [discriminate|]. intro E'. injection E' as <- <-.
      apply span_digits_spec in E as (_ & E & _). apply digits_nz in E. cbn [forallb] in *. rewrite Hc, Hg. exact E.
    - destruct (span_digits (g :: s0)) as [x y] eqn:E. destruct x; [discriminate|]. intro E'. injection E' as <- <-.
      apply span_digits_spec in E as (_ & E & _). apply digits_nz in E. cbn [forallb] in *. rewrite Hc. exact E. }
  unfold scan_number in H. destruct (match s with [] => (false, []) | c :: s' => if (code c =? 45)%N then (true, s') else (false, s) end) as [n0 s1].
  destruct (scan_int s1) as [[a b]|]; [|discriminate].
  destruct (scan_frac b) as [[a2 b2]|] eqn:E2; [|discriminate].
  destruct (scan_exp b2) as [[a3 b3]|] eqn:E3; [|discriminate].
  injection H as <- <- <- <-. rewrite forallb_app, (Gf _ _ _ E2), (Ge _ _ _ E3). reflexivity.
Qed.
Lemma grammar_nz : (forall j t, val j t -> forallb nz t = true) /\ (forall l t, items l t -> forallb nz t = true)
  /\ (forall m t, members m t -> forallb nz t = true).
Proof.
  apply grammar_mind; intros; repeat (rewrite ?forallb_app; cbn [forallb]);
    repeat match goal with H : ws _ |- _ => apply ws_nz in H; rewrite H end;
    repeat match goal with H : quoted _ _ |- _ => apply quoted_nz in H end;
    repeat match goal with H : forallb nz _ = true |- _ => rewrite H end; try reflexivity.
  - pose proof (scan_dump_int z [] I) as H0. apply scan_nz in H0. rewrite app_nil_r in H0. rewrite dump_int_text. exact H0.
  - destruct H as (_ & neg & ds & more & Hs & _). pose proof (scan_nz _ _ _ _ _ Hs) as G.
    apply scan_number_text in Hs as (-> & _). rewrite app_nil_r. exact G.
Qed.
Lemma strip_bom c t : code c <> 239%N -> strip [ch 239; ch 187; ch 191] (c :: t) = None.
Proof.
  intro H. cbn [strip]. destruct (Ascii.eqb_spec (ch 239) c) as [<-|Hn]; [|reflexivity]. exfalso. apply H. reflexivity.
Qed.

(** The text of a document is read as the value. *)
Lemma parse_document j t : document fw fr j t -> parse fr t = Some j.
Proof.
  intros (w1 & t' & w2 & -> & H1 & H2 & Hv). unfold parse. cbn zeta.
  assert (Hnz : forallb nz (w1 ++ t' ++ w2) = true).
  { rewrite !forallb_app, (ws_nz _ H1), (ws_nz _ H2). destruct grammar_nz as (G & _). rewrite (G _ _ Hv). reflexivity. }
  rewrite (to_nul_id _ Hnz). clear Hnz.
  assert (Hb : no_bom (w1 ++ t' ++ w2) = w1 ++ t' ++ w2).
  { unfold no_bom. destruct (val_first _ _ Hv) as (c & t0 & -> & Hf). destruct w1 as [|x w1]; cbn [app].
    - rewrite strip_bom by apply Hf. reflexivity.
    - rewrite strip_bom; [reflexivity|]. intro E. unfold ws in H1. cbn [forallb] in H1. apply andb_true_iff in H1 as [H1 _].
      unfold is_ws in H1. rewrite E in H1. discriminate. }
  rewrite Hb. destruct read_grammar as (G & _).
  assert (Hd : delim w2).
  { rewrite <- (app_nil_r w2). apply ws_delim; [exact H2|exact I]. }
  rewrite (G _ _ Hv (S (length (w1 ++ t' ++ w2))) w1 w2 H1 Hd) by (rewrite !app_length; lia).
  rewrite <- (app_nil_r w2), skip_ws_app by exact H2. reflexivity.
Qed.

(** ** Writing *)
Section JsonInd.
Context (P : json F -> Prop) (Hn : P JNull) (Hb : forall b, P (JBool b)) (Hi : forall z, P (JInt z)) (Hf : forall f, P (JFloat f))
  (Hs : forall s, P (JStr s)) (Ha : forall l, Forall P l -> P (JArr l)) (Ho : forall m, Forall (fun kv => P (snd kv)) m -> P (JObj m)).
Fixpoint json_full_ind (j : json F) : P j :=
  match j with
  | JNull => Hn | JBool b => Hb b | JInt z => Hi z | JFloat f => Hf f | JStr s => Hs s
  | JArr l => Ha l ((fix go l : Forall P l := match l with [] => Forall_nil _ | x :: l' => Forall_cons x (json_full_ind x) (go l') end) l)
  | JObj m => Ho m ((fix go m : Forall (fun kv => P (snd kv)) m :=
      match m with [] => Forall_nil _ | (k, x) :: m' => Forall_cons (k, x) (json_full_ind x) (go m') end) m)
  end.
End JsonInd.

Definition dump_member (kv : bytes * json F) : option bytes :=
  opt_app (option_map (fun t => t ++ [":"%char]) (opt_str (fst kv))) (dump fw (snd kv)).
Lemma dump_rest_items l : Forall (fun j => exists t, dump fw j = Some t /\ val j t) l -> l <> [] ->
  exists t, dump_rest (dump fw) l = Some (","%char :: t) /\ items l t.
Proof.
  induction 1 as [|j l (t & E & Hv) Hl IH]; [congruence|]. intros _. cbn [dump_rest]. rewrite E. cbn [option_map].
  destruct l as [|j2 l].
  - exists t. cbn. rewrite app_nil_r. split; [reflexivity|]. pose proof (i_one fw fr j t [] [] ws_nil ws_nil Hv) as G. cbn in G. rewrite app_nil_r in G. exact G.
  - destruct IH as (t2 & E2 & Hi); [discriminate|]. rewrite E2. cbn [opt_app app]. eexists. split; [reflexivity|].
    apply (i_more fw fr j t (j2 :: l) t2 [] [] ws_nil ws_nil Hv Hi).
Qed.
Lemma dump_items_ok l : Forall (fun j => exists t, dump fw j = Some t /\ val j t) l -> l <> [] ->
  exists t, dump_items (dump fw) l = Some t /\ items l t.
Proof.
  intros H Hne. destruct (dump_rest_items l H Hne) as (t & E & Hi). exists t. split; [|exact Hi].
  destruct l as [|j l]; [congruence|]. cbn [dump_rest dump_items] in *. destruct (dump fw j) as [x|]; [|discriminate].
  cbn [option_map opt_app] in *. destruct (dump_rest (dump fw) l) as [y|]; [|discriminate]. cbn in E. injection E as <-. reflexivity.
Qed.
Lemma dump_rest_members m : Forall (fun kv => utf8 (fst kv) = true /\ exists t, dump fw (snd kv) = Some t /\ val (snd kv) t) m -> m <> [] ->
  exists t, dump_rest dump_member m = Some (","%char :: t) /\ members m t.
Proof.
  induction 1 as [|[k j] m (Hk & t & E & Hv) Hl IH]; [congruence|]. intros _. cbn [dump_rest]. unfold dump_member at 1. cbn [fst snd] in *.
  unfold opt_str. rewrite E, Hk. cbn [option_map opt_app].
  destruct m as [|kv2 m].
  - eexists. cbn. rewrite app_nil_r. split; [reflexivity|].
    pose proof (m_one fw fr k (dump_str k) j t [] [] [] [] ws_nil ws_nil ws_nil ws_nil (quoted_dump k Hk) Hv) as G. cbn in G. rewrite app_nil_r in G.
    rewrite <- app_assoc. exact G.
  - destruct IH as (t2 & E2 & Hi); [discriminate|]. rewrite E2. cbn [opt_app app]. eexists. split; [reflexivity|].
    pose proof (m_more fw fr k (dump_str k) j t (kv2 :: m) t2 [] [] [] [] ws_nil ws_nil ws_nil ws_nil (quoted_dump k Hk) Hv Hi) as G. cbn [app] in G.
    rewrite <- !app_assoc. exact G.
Qed.
Lemma dump_members_ok m : Forall (fun kv => utf8 (fst kv) = true /\ exists t, dump fw (snd kv) = Some t /\ val (snd kv) t) m -> m <> [] ->
  exists t, dump_items dump_member m = Some t /\ members m t.
Proof.
  intros H Hne. destruct (dump_rest_members m H Hne) as (t & E & Hi). exists t. split; [|exact Hi].
  destruct m as [|j l]; [congruence|]. cbn [dump_rest dump_items] in *. destruct (dump_member j) as [x|]; [|discriminate].
  cbn [option_map opt_app] in *. destruct (dump_rest dump_member l) as [y|]; [|discriminate]. cbn in E. injection E as <-. reflexivity.
Qed.
(** Every value that can be shown is written, and as a text of that value. *)
Lemma dump_ok j : wf j -> exists t, dump fw j = Some t /\ val j t.
Proof.
  induction j as [|b|z|f|s|l IH|m IH] using json_full_ind; intro H.
  - eexists. split; [reflexivity|constructor].
  - destruct b; eexists; (split; [reflexivity|constructor]).
  - inversion H; subst. eexists. split; [reflexivity|constructor; assumption].
  - inversion H; subst. eexists. split; [reflexivity|constructor; assumption].
  - inversion H as [| | | |s0 Hs| |]; subst. cbn [dump]. unfold opt_str. rewrite Hs. eexists. split; [reflexivity|constructor; now apply quoted_dump].
  - inversion H as [| | | | |l0 Hl|]; subst. destruct l as [|j l].
    + eexists. split; [reflexivity|]. apply (v_arr0 fw fr [] ws_nil).
    + destruct (dump_items_ok (j :: l)) as (t & E & Hi); [|discriminate|].
      * rewrite Forall_forall in *. intros x Hx. apply IH; auto.
      * change (dump fw (JArr (j :: l))) with (wrap "["%char "]"%char (dump_items (dump fw) (j :: l))). rewrite E. eexists. split; [reflexivity|].
        apply v_arr. exact Hi.
  - inversion H as [| | | | | |m0 Ha Hm]; subst. destruct m as [|kv m].
    + eexists. split; [reflexivity|]. apply (v_obj0 fw fr [] ws_nil).
    + destruct (dump_members_ok (kv :: m)) as (t & E & Hi); [|discriminate|].
      * rewrite Forall_forall in *. intros x Hx. destruct (Hm x Hx). split; [assumption|]. apply IH; assumption.
      * change (dump fw (JObj (kv :: m))) with (wrap "{"%char "}"%char (dump_items dump_member (kv :: m))). rewrite E. eexists. split; [reflexivity|].
        apply v_obj; assumption.
Qed.
Lemma parse_dump j : wf j -> exists t, dump fw j = Some t /\ parse fr t = Some j.
Proof.
  intro H. destruct (dump_ok j H) as (t & E & Hv). exists t. split; [exact E|]. apply parse_document.
  exists [], t, []. rewrite app_nil_r. repeat split; auto.
Qed.
End Read.
