From Coq Require Import String List Arith NArith ZArith Ascii Bool Lia.
Import ListNotations.
From Verif Require Import OMap_model OMap_proofs UnixSystem_model UnixSystem_proofs Names_model Names_spec Crc_model Crc_proofs.
Local Open Scope nat_scope.

Lemma N_order : strict_order N.ltb.
Proof.
  constructor; intros.
  - apply N.ltb_irrefl.
  - apply N.ltb_lt in H, H0. apply N.ltb_lt. lia.
  - apply N.ltb_ge in H, H0. lia.
Qed.
Lemma Z_order : strict_order Z.ltb.
Proof.
  constructor; intros.
  - apply Z.ltb_irrefl.
  - apply Z.ltb_lt in H, H0. apply Z.ltb_lt. lia.
  - apply Z.ltb_ge in H, H0. lia.
Qed.

(** * The table of a process holds the last name set *)
Definition table_of (sets : list (N * list ascii)) : names := fold_left (fun t e => names_insert (fst e) (snd e) t) sets [].

Lemma table_snoc l e : table_of (l ++ [e]) = names_insert (fst e) (snd e) (table_of l).
Proof. unfold table_of. now rewrite fold_left_app. Qed.
Lemma table_ordered l : ordered N.ltb (table_of l).
Proof.
  induction l as [|e l IH] using rev_ind; [apply ordered_nil|]. rewrite table_snoc. now apply (ordered_insert _ N_order).
Qed.
Lemma table_named id l n : named id l n -> mfind N.ltb id (table_of l) = Some n.
Proof.
  induction 1 as [l n|l id' n' n Hd H IH]; rewrite table_snoc; unfold names_insert; cbn [fst snd].
  - apply (find_insert_same _ N_order).
  - rewrite (find_insert_other _ N_order); auto using table_ordered.
Qed.
Lemma table_unnamed id l : unnamed id l -> mfind N.ltb id (table_of l) = None.
Proof.
  unfold unnamed. induction l as [|e l IH] using rev_ind; [reflexivity|]. rewrite table_snoc, map_app, in_app_iff. cbn [map In].
  intros H. unfold names_insert. rewrite (find_insert_other _ N_order); [apply IH; tauto|apply table_ordered|].
  intros E. apply H. right. left. now symmetry.
Qed.
Lemma named_or_not id l : (exists n, named id l n) \/ unnamed id l.
Proof.
  unfold unnamed. induction l as [|[i n] l IH] using rev_ind; [right; auto|].
  destruct (N.eq_dec i id) as [->|Hd]; [left; eexists; constructor|].
  destruct IH as [(m & Hm)|Hn]; [left; exists m; now constructor|]. right. rewrite map_app, in_app_iff. cbn. tauto.
Qed.

Definition flags_ok (sites : list site) (passed : list nat) (p : proc) : Prop :=
  length (pr_done p) = length sites /\
  (forall i, i < length sites -> nth_error (pr_done p) i = Some (existsb (Nat.eqb i) passed)).

Lemma prun_table sites : forall ls passed p sets, flags_ok sites passed p -> pr_names p = table_of sets ->
  pr_names (prun sites ls p) = table_of (sets ++ settings sites passed ls) /\ pr_pid (prun sites ls p) = pr_pid p.
Proof.
  unfold prun. induction ls as [|l ls IH]; intros passed p sets (HL & HF) Hn; cbn [fold_left settings].
  - now rewrite app_nil_r.
  - destruct l as [i|id n]; cbn [pstep settings].
    + destruct (nth_error sites i) as [s|] eqn:Es; [|now apply IH].
      pose proof (nth_error_lt _ _ _ Es) as Hi. rewrite (HF _ Hi). destruct (existsb (Nat.eqb i) passed) eqn:Ep; [now apply IH|].
      match goal with |- context[fold_left _ ls ?q] => set (q' := q) end.
      assert (H : flags_ok sites (i :: passed) q').
      { split; cbn; [now rewrite set_nth_length|]. intros j Hj. cbn [existsb].
        destruct (Nat.eqb_spec j i) as [->|Hd]; [rewrite set_nth_same; [reflexivity|lia]|].
        rewrite set_nth_other by auto. now apply HF. }
      specialize (IH _ q' (sets ++ [(si_id s, si_name s)]) H). rewrite <- app_assoc in IH. cbn [app] in IH.
      destruct IH as [E1 E2]; [subst q'; cbn; rewrite Hn; now rewrite table_snoc|]. now split.
    + match goal with |- context[fold_left _ ls ?q] => set (q' := q) end.
      assert (H : flags_ok sites passed q') by (split; auto).
      specialize (IH _ q' (sets ++ [(id, n)]) H). rewrite <- app_assoc in IH. cbn [app] in IH.
      destruct IH as [E1 E2]; [subst q'; cbn; rewrite Hn; now rewrite table_snoc|]. now split.
Qed.

Lemma answer_is t a : answers t a -> a = Some (AMap [(tr_pid t, table_of (tr_settings t))]).
Proof.
  intros (m & -> & H). unfold m_handle in H. cbn in H. injection H as <-.
  destruct (prun_table (tr_sites t) (tr_past t) [] (proc0 (tr_sites t) (tr_pid t)) []) as [E1 E2].
  - split; cbn; [apply repeat_length|]. intros i Hi.
    assert (H : nth i (repeat false (length (tr_sites t))) true = false).
    { clear -Hi. revert i Hi. induction (length (tr_sites t)) as [|k IH]; intros [|i] H; cbn; try lia; auto. apply IH. lia. }
    rewrite (nth_error_nth' _ true) by now rewrite repeat_length. now rewrite H.
  - reflexivity.
  - now rewrite E1, E2.
Qed.

(** * Gathering *)
Lemma gather_spec procs : NoDup (map tr_pid procs) -> forall ts m,
  transports_of procs ts -> ordered Z.ltb m ->
  (forall t, In t procs -> forall x, mfind Z.ltb (tr_pid t) m = Some x -> x = table_of (tr_settings t)) ->
  exists m', gather ts m = MMap m' /\
    (forall t, In t procs -> (mfind Z.ltb (tr_pid t) m <> None \/ Exists (answers t) ts) ->
       mfind Z.ltb (tr_pid t) m' = Some (table_of (tr_settings t))) /\
    (forall pid, mfind Z.ltb pid m = None -> (forall t, In t procs -> tr_pid t = pid -> ~ Exists (answers t) ts) -> mfind Z.ltb pid m' = None).
Proof.
  intros HND. induction ts as [|a ts IH]; intros m HT HO HM.
  - exists m. split; [reflexivity|]. split.
    + intros t Ht [H|H]; [|inversion H]. destruct (mfind Z.ltb (tr_pid t) m) as [x|] eqn:E; [|congruence]. now rewrite (HM t Ht x E).
    + auto.
  - inversion HT as [|? ? Ha HT']; subst. destruct Ha as [->|[->|(t0 & Ht0 & Ha)]].
    + destruct (IH m HT' HO HM) as (m' & E & H1 & H2). exists m'. split; [exact E|]. split.
      * intros t Ht [H|H]; [auto|]. apply H1; auto. right. inversion H as [? ? Hx|]; subst; [|auto].
        apply answer_is in Hx. discriminate.
      * intros pid Hp Hq. apply H2; auto. intros t Ht Htp Hx. apply (Hq t Ht Htp). now right.
    + destruct (IH m HT' HO HM) as (m' & E & H1 & H2). exists m'. split; [exact E|]. split.
      * intros t Ht [H|H]; [auto|]. apply H1; auto. right. inversion H as [? ? Hx|]; subst; [|auto].
        apply answer_is in Hx. discriminate.
      * intros pid Hp Hq. apply H2; auto. intros t Ht Htp Hx. apply (Hq t Ht Htp). now right.
    + pose proof (answer_is _ _ Ha) as ->. cbn [gather m_mapping fold_left].
      set (m1 := add_new m (tr_pid t0, table_of (tr_settings t0))).
      assert (HO1 : ordered Z.ltb m1).
      { unfold m1, add_new. cbn [fst snd]. destruct (mfind Z.ltb (tr_pid t0) m); auto. now apply (ordered_insert _ Z_order). }
      assert (HS : mfind Z.ltb (tr_pid t0) m1 = Some (table_of (tr_settings t0))).
      { unfold m1, add_new. cbn [fst snd]. destruct (mfind Z.ltb (tr_pid t0) m) as [x|] eqn:E; [now rewrite E, (HM t0 Ht0 x E)|].
        apply (find_insert_same _ Z_order). }
      assert (Hother : forall pid, pid <> tr_pid t0 -> mfind Z.ltb pid m1 = mfind Z.ltb pid m).
      { intros pid Hd. unfold m1, add_new. cbn [fst snd]. destruct (mfind Z.ltb (tr_pid t0) m); auto.
        now rewrite (find_insert_other _ Z_order). }
      assert (Huniq : forall t, In t procs -> tr_pid t = tr_pid t0 -> t = t0).
      { clear -HND Ht0. intros t Ht E. induction procs as [|x l IHl]; [destruct Ht0|]. cbn in HND. inversion HND as [|? ? Hn Hnd]; subst.
        destruct Ht0 as [->|Ht0], Ht as [->|Ht]; auto; exfalso; apply Hn.
        - rewrite <- E. now apply in_map.
        - rewrite E. now apply in_map. }
      destruct (IH m1 HT' HO1) as (m' & E & H1 & H2).
      { intros t Ht x Hx. destruct (Z.eq_dec (tr_pid t) (tr_pid t0)) as [Ee|Hd].
        - rewrite (Huniq _ Ht Ee) in *. congruence.
        - rewrite Hother in Hx by auto. eauto. }
      exists m'. split; [exact E|]. split.
      * intros t Ht H. destruct (Z.eq_dec (tr_pid t) (tr_pid t0)) as [Ee|Hd].
        { rewrite (Huniq _ Ht Ee) in *. apply H1; auto. left. congruence. }
        apply H1; auto. rewrite Hother by auto. destruct H as [H|H]; [auto|]. right. inversion H as [? ? Hx|]; subst; [|auto].
        apply answer_is in Hx. injection Hx as Hx _. congruence.
      * intros pid Hp Hq. destruct (Z.eq_dec pid (tr_pid t0)) as [->|Hd].
        { exfalso. apply (Hq t0 Ht0 eq_refl). now left. }
        apply H2; [now rewrite Hother|]. intros t Ht Htp Hx. apply (Hq t Ht Htp). now right.
Qed.

(** * Hexadecimal *)
Lemma digit_hex d : (d < 16)%N -> digit_value (hex_digit d) = Some d.
Proof.
  intros H. destruct d as [|p]; [reflexivity|].
  do 4 (destruct p as [p|p|]; try reflexivity); lia.
Qed.
Lemma hex_digit_zero d : (d < 16)%N -> hex_digit d = "0"%char -> d = 0%N.
Proof. intros H E. pose proof (digit_hex d H) as Hd. rewrite E in Hd. vm_compute in Hd. congruence. Qed.

Lemma hex_go_spec : forall f n acc, (n < 2 ^ N.of_nat f)%N -> f <> 0 ->
  exists h, hex_go f n acc = h ++ acc /\ h <> [] /\ (forall x, hex_value x h = Some (x * 16 ^ N.of_nat (length h) + n)%N) /\
            (hd_error h = Some "0"%char -> n = 0%N /\ h = ["0"%char]).
Proof.
  induction f as [|f IH]; intros n acc Hn Hf; [congruence|]. cbn [hex_go].
  destruct (N.ltb_spec n 16) as [Hs|Hl].
  - exists [hex_digit n]. repeat split; cbn [app length hex_value hd_error].
    + discriminate.
    + intros x. rewrite digit_hex by auto. f_equal. change (16 ^ N.of_nat 1)%N with 16%N. lia.
    + injection H as H. now apply hex_digit_zero.
    + injection H as H. apply hex_digit_zero in H; auto. now subst n.
  - assert (Hf' : f <> 0) by (intros ->; cbn in Hn; lia).
    destruct (IH (n / 16)%N (hex_digit (n mod 16)%N :: acc)) as (h & E & Hne & Hv & Hz); auto.
    { rewrite Nat2N.inj_succ, N.pow_succ_r' in Hn. apply N.div_lt_upper_bound; [lia|].
      assert (2 * 2 ^ N.of_nat f <= 16 * 2 ^ N.of_nat f)%N by lia. lia. }
    exists (h ++ [hex_digit (n mod 16)%N]). rewrite E, <- app_assoc. repeat split.
    + destruct h; discriminate.
    + intros x. assert (Happ : forall a b x, hex_value x (a ++ b) = match hex_value x a with Some v => hex_value v b | None => None end).
      { clear. induction a as [|c a IH]; intros b x; cbn; auto. destruct (digit_value c); auto. }
      rewrite Happ, Hv. cbn [hex_value]. rewrite digit_hex by (apply N.mod_lt; lia). f_equal.
      rewrite app_length, Nat2N.inj_add. change (N.of_nat (length [hex_digit (n mod 16)])) with 1%N.
      rewrite N.pow_add_r, N.pow_1_r. pose proof (N.div_mod n 16). set (P := (16 ^ N.of_nat (length h))%N). nia.
    + destruct h as [|c h]; [congruence|]. cbn [hd_error app] in *. destruct (Hz H) as [Hz0 Hz1].
      exfalso. pose proof (N.div_mod n 16). pose proof (N.mod_lt n 16). lia.
    + destruct h as [|c h]; [congruence|]. cbn [hd_error app] in *. destruct (Hz H) as [Hz0 Hz1].
      exfalso. pose proof (N.div_mod n 16). pose proof (N.mod_lt n 16). lia.
Qed.

Lemma hex_spec n : is_hex_of (hex n) n.
Proof.
  unfold hex. destruct (hex_go_spec (S (N.to_nat (N.log2 n))) n []) as (h & E & Hne & Hv & Hz); [|lia|].
  - rewrite Nat2N.inj_succ, N2Nat.id. destruct n as [|p]; [cbn; lia|]. apply N.log2_spec. lia.
  - rewrite app_nil_r in E. rewrite E. split; [exact Hne|]. split; [rewrite Hv; reflexivity|]. intros H. now apply Hz.
Qed.

Lemma unknown_spec id : unknown_text (list_ascii_of_string "Unknown 0x"%string ++ hex id) id.
Proof. exists (hex id). split; [reflexivity|apply hex_spec]. Qed.

(** * C24 *)
Theorem shown_name procs ts old pid id :
  NoDup (map tr_pid procs) -> transports_of procs ts ->
  let shown := scope_name (update_mapping true ts old) pid id in
  (forall t n, In t procs -> tr_pid t = pid -> Exists (answers t) ts -> named id (tr_settings t) n -> shown = n) /\
  (forall t, In t procs -> tr_pid t = pid -> unnamed id (tr_settings t) -> unknown_text shown id) /\
  ((forall t, In t procs -> tr_pid t = pid -> ~ Exists (answers t) ts) -> unknown_text shown id).
Proof.
  intros HND HT. cbn zeta. unfold update_mapping.
  destruct (gather_spec procs HND ts [] HT (ordered_nil _)) as (m & E & H1 & H2); [cbn; discriminate|].
  rewrite E. unfold scope_name. split; [|split].
  - intros t n Ht <- Ha Hn. rewrite (H1 t Ht (or_intror Ha)). now rewrite (table_named _ _ _ Hn).
  - intros t Ht <- Hn. destruct (mfind Z.ltb (tr_pid t) m) as [x|] eqn:Em; [|apply unknown_spec].
    destruct (mfind N.ltb id x) as [nm|] eqn:En; [|apply unknown_spec]. exfalso.
    (* either [t] answered, and then the table is its own, or nobody filled the entry *)
    destruct (Exists_dec (answers t) ts) as [Ha|Ha].
    { intros a. destruct a as [[| | | |m0]|]; try (right; intros Hx; apply answer_is in Hx; discriminate).
      unfold answers. destruct (m_handle (prun (tr_sites t) (tr_past t) (proc0 (tr_sites t) (tr_pid t))) ["m"%char]) as [| |m1] eqn:Eh;
        try (right; intros (m2 & Hx & Hy); congruence).
      assert (Hdec : {m0 = m1} + {m0 <> m1}).
      { repeat decide equality. }
      destruct Hdec as [->|Hd]; [left; eauto|right; intros (m2 & Hx & Hy); congruence]. }
    { rewrite (H1 t Ht (or_intror Ha)) in Em. injection Em as <-. rewrite (table_unnamed _ _ Hn) in En. discriminate. }
    { rewrite (H2 (tr_pid t)) in Em; [discriminate|reflexivity|]. intros t' Ht' Ee.
      assert (t' = t) as ->; [|exact Ha]. clear -HND Ht Ht' Ee.
      induction procs as [|y l IHl]; [destruct Ht|]. cbn in HND. inversion HND as [|? ? Hn Hnd]; subst.
      destruct Ht as [->|Ht], Ht' as [->|Ht']; auto; exfalso; apply Hn.
      - rewrite <- Ee. now apply in_map.
      - rewrite Ee. now apply in_map. }
  - intros Hn. rewrite (H2 pid eq_refl Hn). apply unknown_spec.
Qed.

(** * Splitting *)
Lemma split_first_some s a b : split_first s = Some (a, b) -> s = a ++ slash :: b /\ ~ In slash a.
Proof.
  revert a b. induction s as [|c s IH]; intros a b; cbn; [discriminate|].
  destruct (Ascii.eqb_spec c slash) as [->|Hd].
  - intros H. injection H as <- <-. auto.
  - destruct (split_first s) as [[a' b']|] eqn:E; [|discriminate]. intros H. injection H as <- <-.
    destruct (IH a' b' eq_refl) as [-> Hn]. split; [reflexivity|]. intros [H|H]; auto.
Qed.
Lemma split_first_none s : split_first s = None -> ~ In slash s.
Proof.
  induction s as [|c s IH]; cbn; auto. destruct (Ascii.eqb_spec c slash) as [->|Hd]; [discriminate|].
  destruct (split_first s) as [[a b]|]; [discriminate|]. intros _ [H|H]; auto. now apply IH.
Qed.
Lemma split_first_app a b : ~ In slash a -> split_first (a ++ slash :: b) = Some (a, b).
Proof.
  induction a as [|c a IH]; cbn; [auto|]. intros H. destruct (Ascii.eqb_spec c slash) as [->|Hd]; [tauto|]. rewrite IH; auto.
Qed.

Theorem split_spec s :
  (In slash s -> let (c, r) := split_series s in s = c ++ slash :: r /\ ~ In slash c) /\
  (~ In slash s -> split_series s = (s, list_ascii_of_string "count"%string)).
Proof.
  unfold split_series. destruct (split_first s) as [[a b]|] eqn:E.
  - apply split_first_some in E. destruct E as [-> Hn]. split; [auto|]. intros H. exfalso. apply H. apply in_or_app. right. now left.
  - apply split_first_none in E. split; [tauto|auto].
Qed.

Theorem series_spec file n r : ~ In slash n -> split_series (si_name (site_series file n r)) = (n, r).
Proof. intros H. cbn. unfold split_series. now rewrite split_first_app. Qed.

(** * C25 *)
Lemma last_not_slash_count l : l ++ [slash] <> list_ascii_of_string "count"%string.
Proof. intros H. change (list_ascii_of_string "count"%string) with (list_ascii_of_string "coun"%string ++ ["t"%char]) in H. apply app_inj_tail in H. destruct H as [_ H]. discriminate. Qed.

Theorem count_never file n : snd (split_series (si_name (site_count file n))) <> list_ascii_of_string "count"%string.
Proof.
  cbn. destruct (in_dec ascii_dec slash n) as [Hin|Hn].
  - destruct (split_first n) as [[a b]|] eqn:E; [|now apply split_first_none in E].
    apply split_first_some in E. destruct E as [-> Ha].
    unfold split_series. rewrite <- app_assoc. cbn [app]. rewrite split_first_app by auto. cbn [snd]. apply last_not_slash_count.
  - unfold split_series. rewrite split_first_app by auto. discriminate.
Qed.

Theorem count_as_is file n : ~ In slash n -> split_series (si_name (site_count file n)) = (n, []).
Proof. intros H. now apply series_spec. Qed.

(** * C61: the name at the trace point *)
Lemma named_in id : forall l n, named id l n -> In (id, n) l.
Proof. induction 1; apply in_or_app; cbn; auto. Qed.

Lemma settings_in sites : forall ls passed id n, In (id, n) (settings sites passed ls) ->
  (exists s, In s sites /\ si_id s = id /\ si_name s = n) \/ In (PSetName id n) ls.
Proof.
  induction ls as [|l ls IH]; intros passed id n H; cbn in H; [destruct H|].
  destruct l as [i|id' n'].
  - destruct (nth_error sites i) as [s|] eqn:E; [|apply IH in H; cbn; intuition].
    destruct (existsb (Nat.eqb i) passed); [apply IH in H; cbn; intuition|]. destruct H as [H|H].
    + injection H as <- <-. left. exists s. eauto using nth_error_In.
    + apply IH in H. cbn; intuition.
  - destruct H as [H|H]; [injection H as <- <-; right; now left|]. apply IH in H. cbn; intuition.
Qed.

Lemma settings_has sites i s : nth_error sites i = Some s -> forall ls passed, In (PPass i) ls -> existsb (Nat.eqb i) passed = false ->
  In (si_id s, si_name s) (settings sites passed ls).
Proof.
  intros Hs. induction ls as [|l ls IH]; intros passed Hin Hp; [destruct Hin|]. destruct Hin as [->|H]; cbn.
  - rewrite Hs, Hp. now left.
  - destruct l as [j|id n]; [|right; auto]. destruct (nth_error sites j) as [s'|] eqn:E; [|auto].
    destruct (existsb (Nat.eqb j) passed) eqn:Ej; [auto|]. destruct (Nat.eqb_spec i j) as [->|Hd].
    + left. congruence.
    + right. apply IH; auto. cbn. apply Nat.eqb_neq in Hd. now rewrite Hd.
Qed.

Theorem site_shown procs ts old t i s :
  NoDup (map tr_pid procs) -> transports_of procs ts -> In t procs -> Exists (answers t) ts ->
  nth_error (tr_sites t) i = Some s -> In (PPass i) (tr_past t) ->
  (forall s', In s' (tr_sites t) -> si_id s' = si_id s -> si_name s' = si_name s) ->
  (forall n, In (PSetName (si_id s) n) (tr_past t) -> n = si_name s) ->
  scope_name (update_mapping true ts old) (tr_pid t) (si_id s) = si_name s.
Proof.
  intros HND HT Ht Ha Hs Hp Hu Hset.
  destruct (shown_name procs ts old (tr_pid t) (si_id s) HND HT) as (H1 & _ & _).
  destruct (named_or_not (si_id s) (tr_settings t)) as [(n & Hn)|Hn].
  - rewrite (H1 t n Ht eq_refl Ha Hn). apply named_in in Hn. apply settings_in in Hn.
    destruct Hn as [(s' & Hs' & E1 & E2)|Hn]; [rewrite <- E2; auto|auto].
  - exfalso. apply Hn. apply (in_map fst) with (x := (si_id s, si_name s)). now apply (settings_has _ i).
Qed.

(** Two marks in one file: the second registration replaces the name of the first. *)
Definition clash (pid : Z) : traced :=
  {| tr_pid := pid; tr_sites := [site_named (str "a.cpp") (str "testdraw_check"); site_named (str "a.cpp") (str "workmakestate")];
     tr_past := [PPass 0; PPass 1] |}.
Definition reply_of (t : traced) : option answer :=
  match m_handle (prun (tr_sites t) (tr_past t) (proc0 (tr_sites t) (tr_pid t))) ["m"%char] with HReply m => Some (AMap m) | _ => None end.
Lemma reply_answers t : answers t (reply_of t).
Proof. unfold answers, reply_of, m_handle. cbn. eauto. Qed.

Theorem site_wrong pid : exists t i s,
  tr_pid t = pid /\ nth_error (tr_sites t) i = Some s /\ In (PPass i) (tr_past t) /\ (forall id n, ~ In (PSetName id n) (tr_past t)) /\ answers t (reply_of t) /\ scope_name (update_mapping true [reply_of t] []) pid (si_id s) <> si_name s.
Proof.
  exists (clash pid), 0, (site_named (str "a.cpp") (str "testdraw_check")).
  split; [reflexivity|]. split; [reflexivity|]. split; [now left|].
  split; [intros id n [H|[H|[]]]; discriminate|]. split; [apply reply_answers|].
  destruct (shown_name [clash pid] [reply_of (clash pid)] [] pid (si_id (site_named (str "a.cpp") (str "testdraw_check")))) as (H & _ & _).
  - repeat constructor. intros [].
  - constructor; [|constructor]. right. right. exists (clash pid). split; [now left|apply reply_answers].
  - rewrite (H (clash pid) (str "workmakestate")); [discriminate|now left|reflexivity|left; apply reply_answers|].
    unfold tr_settings. cbn [clash tr_sites tr_past settings nth_error existsb Nat.eqb orb].
    cbn [si_id si_name site_named].
    destruct (names_collide (str "a.cpp")) as [_ ->].
    exact (named_last _ [(id_of_name (str "a.cpp") (str "workmakestate"), str "testdraw_check")] (str "workmakestate")).
Qed.

(** ** Concrete cases *)
Definition proc_a : traced :=
  {| tr_pid := 7; tr_sites := [site_scope (str "a.cpp") 12 (str "load"); site_count (str "a.cpp") (str "items")];
     tr_past := [PPass 1; PPass 0; PPass 1; PSetName 5 (str "five"); PSetName 5 (str "FIVE")] |}.
Definition proc_b : traced :=
  {| tr_pid := 3; tr_sites := [site_scope (str "a.cpp") 12 (str "other")]; tr_past := [PPass 0; PSetName 255 (str "x/y/z")] |}.
Definition case_ts : list (option answer) := [None; reply_of proc_a; Some ASilent; reply_of proc_b; reply_of proc_a].

Example case_transports : NoDup (map tr_pid [proc_a; proc_b]) /\ transports_of [proc_a; proc_b] case_ts /\ Exists (answers proc_a) case_ts.
Proof.
  split; [repeat constructor; cbn; intuition discriminate|]. split.
  - unfold transports_of, case_ts. apply Forall_forall. intros a [<-|[<-|[<-|[<-|[<-|[]]]]]]; auto; right; right.
    + exists proc_a. split; [cbn; auto|apply reply_answers].
    + exists proc_b. split; [cbn; auto|apply reply_answers].
    + exists proc_a. split; [cbn; auto|apply reply_answers].
  - right. left. apply reply_answers.
Qed.
Example case_shown :
  let m := update_mapping true case_ts [] in
  scope_name m 7 5 = str "FIVE" /\ scope_name m 3 5 = str "Unknown 0x5" /\ scope_name m 7 255 = str "Unknown 0xff" /\ scope_name m 3 255 = str "x/y/z" /\ scope_name m 9 4096 = str "Unknown 0x1000" /\ scope_name m 7 (id_of_line (str "a.cpp") 12) = str "load" /\ scope_name m 3 (id_of_line (str "a.cpp") 12) = str "other".
Proof. vm_compute. repeat split. Qed.
Example case_split : split_series (str "x/y/z") = (str "x", str "y/z") /\ split_series (str "/a") = ([], str "a") /\ split_series (str "items") = (str "items", str "count") /\ split_series (si_name (site_count (str "a.cpp") (str "items"))) = (str "items", []).
Proof. vm_compute. repeat split. Qed.
Example case_unique : forall s', In s' (tr_sites proc_a) -> si_id s' = si_id (site_scope (str "a.cpp") 12 (str "load")) ->
  si_name s' = si_name (site_scope (str "a.cpp") 12 (str "load")).
Proof. intros s' [<-|[<-|[]]]; vm_compute; [auto|discriminate]. Qed.
