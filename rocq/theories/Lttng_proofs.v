From Coq Require Import String List Arith NArith ZArith Ascii Bool Lia Floats.SpecFloat Sorting.Permutation Sorting.Sorted.
Import ListNotations.
From Verif Require Import OMap_model OMap_proofs Names_model Names_proofs Native_model Native_spec Native_proofs Str_model Ctf_model Ctf_spec Ctf_proofs Lttng_model Lttng_spec.
Local Open Scope nat_scope.
Local Notation length := List.length.

(** * Numbers *)
Lemma million : to_double 1000000 = S754_finite false 8589934592000000 (-33).
Proof. vm_compute. reflexivity. Qed.
Lemma lts_not_nan t : t <> S754_nan -> lts t <> S754_nan.
Proof.
  intro H. unfold lts. rewrite million. unfold SFmul. destruct t as [s|s| |s m e]; try discriminate; [congruence|].
  apply round_aux_not_nan. lia.
Qed.
Lemma to_int_small n : (n < 2 ^ 31)%N -> to_int 32 n = Z.of_N n.
Proof.
  intro H. unfold to_int. rewrite Z.mod_small by lia. change (2 ^ (32 - 1))%Z with (2 ^ 31)%Z. destruct (Z.ltb_spec (Z.of_N n) (2 ^ 31)); lia.
Qed.
Lemma to_int_value z : (- 2 ^ 63 <= z < 2 ^ 63)%Z -> to_int 64 (Z.to_N (z mod 2 ^ 64)) = z.
Proof.
  intro H. unfold to_int. rewrite Z2N.id by (apply Z.mod_pos_bound; lia). rewrite Z.mod_mod by lia. change (2 ^ (64 - 1))%Z with (2 ^ 63)%Z.
  destruct (Z.ltb_spec (z mod 2 ^ 64) (2 ^ 63)) as [L|L].
  - destruct (Z.le_gt_cases 0 z) as [G|G]; [apply Z.mod_small; lia|]. exfalso. assert (E : (z mod 2 ^ 64 = z + 2 ^ 64)%Z) by (symmetry; apply (Z.mod_unique z (2 ^ 64) (-1) (z + 2 ^ 64)); lia). lia.
  - destruct (Z.le_gt_cases 0 z) as [G|G]; [rewrite Z.mod_small in L by lia; lia|]. assert (E : (z mod 2 ^ 64 = z + 2 ^ 64)%Z) by (symmetry; apply (Z.mod_unique z (2 ^ 64) (-1) (z + 2 ^ 64)); lia). lia.
Qed.

(** * Counters by name *)
Record wf_cm (c : counter_map) : Prop := { wfc_out : ordered str_ltb c; wfc_in : forall name, ordered str_ltb (cm_of name c) }.
Lemma wfc_nil : wf_cm [].
Proof. constructor; intros; apply ordered_nil. Qed.
Lemma cm_of_set name name' s c : wf_cm c -> cm_of name (cm_set name' s c) = if str_eqb name name' then s else cm_of name c.
Proof.
  intros W. unfold cm_of, cm_set. destruct (str_eqb_spec name name') as [->|Hn].
  - now rewrite (find_insert_same _ str_order).
  - rewrite (find_insert_other _ str_order); auto. apply wfc_out; auto.
Qed.
Lemma wfc_set name s c : wf_cm c -> ordered str_ltb s -> wf_cm (cm_set name s c).
Proof.
  intros W Hs. constructor.
  - apply (ordered_insert _ str_order), wfc_out; auto.
  - intros n. rewrite cm_of_set by auto. destruct (str_eqb n name); auto. apply wfc_in; auto.
Qed.

(** * One event *)
Definition conv_deed (m : mapping) (d : deed) (cv : counter_map) : entry * counter_map :=
  let mk ph s := ({| en_ts := lts (d_time d); en_tid := d_tid d; en_pid := Z.of_N (d_pid d); en_name := label_of m d; en_ph := ph; en_s := s; en_args := None |}, cv) in
  match d_kind d with
  | KCount z =>
      let counter := fst (split_series (label_of m d)) in
      let sm := minsert str_ltb (snd (split_series (label_of m d))) z (cm_of counter cv) in
      ({| en_ts := lts (d_time d); en_tid := d_tid d; en_pid := Z.of_N (d_pid d); en_name := counter; en_ph := "C"%char; en_s := None; en_args := Some sm |}, cm_set counter sm cv)
  | k => mk (fst (kind_phase k)) (snd (kind_phase k))
  end.
Lemma lconv_tells m e d cv : tells e d -> lconv m e cv = LOk (fst (conv_deed m d cv)) (snd (conv_deed m d cv)).
Proof.
  intros [T1 T2 T3 T4 T5 T6 T7 T8 T9]. unfold lconv. rewrite T1, T5, T3, T6, to_int_small by exact T4. rewrite N.mod_small by exact T7. fold (label_of m d).
  unfold is_named. rewrite T8. unfold conv_deed. destruct (d_kind d) as [| | | | |z] eqn:K; try reflexivity.
  cbn [kind_name]. repeat (destruct (list_eq_dec ascii_dec _ _) as [G|G]; [try discriminate G|try congruence]).
  destruct (split_series (label_of m d)) as [c s]. destruct (T9 z eq_refl) as [Hz ->]. rewrite to_int_value by exact Hz. reflexivity.
Qed.

Fixpoint dfwd (m : mapping) (l : list deed) (cv : counter_map) : list entry * counter_map :=
  match l with
  | [] => ([], cv)
  | d :: l' => (fst (conv_deed m d cv) :: fst (dfwd m l' (snd (conv_deed m d cv))), snd (dfwd m l' (snd (conv_deed m d cv))))
  end.
Lemma lloop_fwd m : forall es l cv res, Forall2 tells (ours es) l -> lloop m es cv res false = LPOn (res ++ fst (dfwd m l cv)) false.
Proof.
  induction es as [|e es IH]; intros l cv res H; unfold ours in *; cbn [filter lloop] in *.
  - inversion H; subst. cbn. rewrite app_nil_r. reflexivity.
  - change (if list_eq_dec ascii_dec (c_domain e) scalopus_domain then true else false) with (in_domain e) in H. destruct (in_domain e); [|exact (IH l cv res H)]. inversion H as [|? d ? l' H1 H2]; subst. rewrite (lconv_tells m e d cv H1). rewrite (IH l' _ _ H2). cbn [dfwd fst]. rewrite <- app_assoc. reflexivity.
Qed.

Definition proper_deed (d : deed) : Prop := d_time d <> S754_nan.
(** What the first pass gives for a deed. *)
Lemma conv_wf m d cv : wf_cm cv -> wf_cm (snd (conv_deed m d cv)).
Proof. intro W. unfold conv_deed. destruct (d_kind d); cbn [snd]; auto. apply wfc_set; auto. apply (ordered_insert _ str_order). now apply wfc_in. Qed.
Definition d_val (d : deed) : Z := match d_kind d with KCount z => z | _ => 0%Z end.
Definition dkv (m : mapping) (d : deed) : list ascii * Z := (snd (split_series (label_of m d)), d_val d).
Lemma conv_cm m d cv name : wf_cm cv -> cm_of name (snd (conv_deed m d cv)) = if counts m name d then minsert str_ltb (fst (dkv m d)) (snd (dkv m d)) (cm_of name cv) else cm_of name cv.
Proof.
  intro W. unfold conv_deed, counts, dkv, d_val. destruct (d_kind d); cbn [fst snd]; auto. rewrite cm_of_set by auto.
  destruct (str_eqb_spec name (fst (split_series (label_of m d)))) as [->|Hd]; [now rewrite str_eqb_refl|]. destruct (str_eqb_spec (fst (split_series (label_of m d))) name); congruence.
Qed.
Lemma conv_portrays m d cv : wf_cm cv -> portrays m d (fst (conv_deed m d cv)).
Proof.
  intro W. unfold conv_deed. destruct (d_kind d) eqn:K; constructor; cbn; rewrite ?K; auto. eexists. split; [reflexivity|]. apply (find_insert_same _ str_order).
Qed.
Lemma conv_args m d cv : wf_cm cv -> forall z, d_kind d = KCount z -> en_args (fst (conv_deed m d cv)) = Some (cm_of (en_name (fst (conv_deed m d cv))) (snd (conv_deed m d cv))).
Proof. intros W z K. unfold conv_deed. rewrite K. cbn. rewrite cm_of_set by auto. now rewrite str_eqb_refl. Qed.
Lemma conv_ordered m d cv : wf_cm cv -> ordered_args (fst (conv_deed m d cv)).
Proof. intro W. unfold conv_deed, ordered_args. destruct (d_kind d); cbn; auto. apply (ordered_insert _ str_order). now apply wfc_in. Qed.

Lemma dfwd_portrays m : forall l cv, wf_cm cv -> Forall2 (portrays m) l (fst (dfwd m l cv)).
Proof. induction l as [|d l IH]; intros cv W; cbn; constructor; [now apply conv_portrays|]. apply IH. now apply conv_wf. Qed.
Lemma dfwd_ordered m : forall l cv, wf_cm cv -> Forall ordered_args (fst (dfwd m l cv)).
Proof. induction l as [|d l IH]; intros cv W; cbn; constructor; [now apply conv_ordered|]. apply IH. now apply conv_wf. Qed.

Definition isn (name : list ascii) (e : entry) : bool := Ascii.eqb (en_ph e) "C" && str_eqb (en_name e) name.
Lemma portrays_isn m name d e : portrays m d e -> isn name e = counts m name d.
Proof.
  intros [H1 H2 H3 H4 H5 H6]. unfold isn, counts. rewrite H5. destruct (d_kind d); cbn in H4; injection H4 as H4 _; rewrite H4; reflexivity.
Qed.
Lemma dfwd_args m name : forall l cv, wf_cm cv ->
  map en_args (filter (isn name) (fst (dfwd m l cv))) = map Some (scan (cm_of name cv) (map (dkv m) (filter (counts m name) l))).
Proof.
  induction l as [|d l IH]; intros cv W; [reflexivity|]. cbn [dfwd fst filter]. pose proof (conv_portrays m d cv W) as P. rewrite (portrays_isn m name d _ P).
  specialize (IH _ (conv_wf m d cv W)). pose proof (conv_cm m d cv name W) as C. destruct (counts m name d) eqn:E; cbn [map]; [|rewrite IH, C; reflexivity].
  rewrite IH, C. destruct (dkv m d) as [s v] eqn:Ekv. cbn [fst snd scan] in *. f_equal. unfold counts in E. destruct (d_kind d) eqn:K; try discriminate.
  rewrite (conv_args m d cv W _ K), (po_name _ _ _ P), K. destruct (str_eqb_spec (fst (split_series (label_of m d))) name) as [->|]; [|discriminate]. now rewrite C.
Qed.

(** * The reverse pass *)
Lemma lfill_same : forall l, Forall2 same_but_args l (fst (lfill l)).
Proof.
  induction l as [|e l IH]; cbn [lfill]; [constructor|]. destruct (lfill l) as [r all]. cbn [fst] in *.
  destruct (Ascii.eqb (en_ph e) "C"); [destruct (en_args e) as [a|] eqn:E|]; cbn [fst]; constructor; auto; repeat split; auto; cbn; rewrite ?E; try discriminate; auto.
Qed.
Lemma lfill_keeps : forall l, Forall ordered_args l -> Forall2 keeps l (fst (lfill l)) /\ wf_cm (snd (lfill l)).
Proof.
  induction 1 as [|e l He Hl [IH W]]; cbn [lfill]; [split; [constructor|apply wfc_nil]|].
  destruct (lfill l) as [r all]. cbn [fst snd] in *.
  assert (Hk : keeps e e) by (intros a Ha; eauto).
  destruct (Ascii.eqb (en_ph e) "C"); [destruct (en_args e) as [a|] eqn:E|]; cbn [fst snd]; try (split; [constructor|]; auto).
  - assert (Ha : ordered str_ltb a) by (unfold ordered_args in He; rewrite E in He; exact He). intros a0 Ea0. exists (merge_series a (cm_of (en_name e) all)).
    split; [reflexivity|]. assert (a0 = a) as -> by congruence. intros s v Hv. destruct (merge_find (cm_of (en_name e) all) a s Ha (wfc_in _ W _)) as [-> _]. now rewrite Hv.
  - apply wfc_set; auto. assert (Ha : ordered str_ltb a) by (unfold ordered_args in He; rewrite E in He; exact He).
    destruct (merge_find (cm_of (en_name e) all) a [] Ha (wfc_in _ W _)) as [_ O]. exact O.
Qed.
Lemma lfill_args name : forall l, Forall ordered_args l ->
  forall ms, map en_args (filter (isn name) l) = map Some ms ->
     map en_args (filter (isn name) (fst (lfill l))) = map Some (rfill ms) /\ cm_of name (snd (lfill l)) = hd [] (rfill ms).
Proof.
  induction 1 as [|e l He Hl IH]; cbn [lfill].
  - intros [|? ?] H; [|discriminate]. now split.
  - pose proof (proj2 (lfill_keeps l Hl)) as W. destruct (lfill l) as [r all]. cbn [fst snd] in *. cbn [filter].
    destruct (Ascii.eqb_spec (en_ph e) "C") as [Ec|Ec].
    + destruct (en_args e) as [a|] eqn:Ea.
      * cbn [fst snd]. intros ms Hms. cbn [filter]. change (isn name (with_args e _)) with (isn name e). rewrite cm_of_set by auto.
        assert (Ei : isn name e = str_eqb name (en_name e)).
        { unfold isn. rewrite Ec. cbn [Ascii.eqb Bool.eqb andb]. destruct (str_eqb_spec (en_name e) name), (str_eqb_spec name (en_name e)); congruence. }
        rewrite Ei in *. destruct (str_eqb_spec name (en_name e)) as [En'|]; [|now apply IH].
        cbn [map] in *. rewrite Ea in Hms. destruct ms as [|a0 ms]; [discriminate|].
        cbn [map] in Hms. injection Hms as <- Hms. destruct (IH ms Hms) as [E1 E2]. rewrite E1, <- En', E2. now split.
      * cbn [fst snd]. intros ms Hms. cbn [filter]. destruct (isn name e) eqn:Ei; [|auto].
        cbn [map] in Hms. rewrite Ea in Hms. destruct ms; discriminate.
    + cbn [fst snd]. intros ms Hms. cbn [filter].
      assert (Ei : isn name e = false) by (unfold isn; destruct (Ascii.eqb_spec (en_ph e) "C"); [congruence|reflexivity]).
      rewrite Ei in *. auto.
Qed.

Lemma portrays_after m d e e' : portrays m d e -> same_but_args e e' -> keeps e e' -> portrays m d e'.
Proof.
  intros [H1 H2 H3 H4 H5 H6] (A1 & A2 & A3 & A4 & A5 & A6 & A7) K. constructor; try congruence.
  destruct (d_kind d); try (apply A7; exact H6). destruct H6 as (a & Ha & Hs). destruct (K a Ha) as (a' & Ha' & Hs'). eauto.
Qed.
Lemma latest_counts m p name s : forall l, sole m p name l ->
  latest (gives_to m p name s) l = latest (gives s) (map (dkv m) (filter (counts m name) l)) /\
  earliest (gives_to m p name s) l = earliest (gives s) (map (dkv m) (filter (counts m name) l)).
Proof.
  induction 1 as [|d l Hd Hl [IH1 IH2]]; [split; reflexivity|]. cbn [filter latest earliest].
  assert (E : gives_to m p name s d = if counts m name d then gives s (dkv m d) else None).
  { unfold gives_to. destruct (counts m name d) eqn:Ec; [|rewrite andb_false_r; reflexivity]. rewrite (Hd eq_refl), N.eqb_refl. cbn [andb]. unfold gives, dkv, d_val. cbn [fst snd].
    unfold counts in Ec. destruct (d_kind d); try discriminate. reflexivity. }
  rewrite E, IH1, IH2. destruct (counts m name d); cbn [map latest earliest]; [split; reflexivity|].
  split; [destruct (latest (gives s) (map (dkv m) (filter (counts m name) l)))|]; reflexivity.
Qed.

Lemma Forall2_cut {A B} (R : A -> B -> Prop) o1 d o2 e1 e e2 : Forall2 R (o1 ++ d :: o2) (e1 ++ e :: e2) -> length e1 = length o1 -> Forall2 R o1 e1 /\ R d e /\ Forall2 R o2 e2.
Proof.
  revert e1. induction o1 as [|x o1 IH]; intros [|y e1] H L; cbn in *; try discriminate; inversion H; subst; auto. injection L as L. destruct (IH e1) as (G1 & G2 & G3); auto.
Qed.
Definition dpair_ltb (a b : deed * entry) : bool := ts_ltb (snd a) (snd b).

Section Finish.
Variable m : mapping.
Variable l : list deed.
Hypothesis HP : Forall proper_deed l.
Let P := combine l (fst (dfwd m l [])).
Let order := map fst (stable_sort dpair_ltb P).
Let entries := fst (lfill (stable_sort ts_ltb (fst (dfwd m l [])))).

Let HL : length l = length (fst (dfwd m l [])).
Proof. apply (Forall2_length (dfwd_portrays m l [] wfc_nil)). Qed.
Let HPS : Forall (fun p => portrays m (fst p) (snd p)) P.
Proof. apply Forall2_combine, dfwd_portrays, wfc_nil. Qed.
Let Hpair : forall x y, In x P -> In y P -> dpair_ltb x y = earlier (fst x) (fst y).
Proof.
  intros x y Hx Hy. rewrite Forall_forall in HPS. unfold dpair_ltb, ts_ltb, earlier.
  now rewrite (po_time _ _ _ (HPS x Hx)), (po_time _ _ _ (HPS y Hy)).
Qed.
Let Horder : order = stable_sort earlier l.
Proof. unfold order. rewrite (sort_map fst dpair_ltb earlier P Hpair). unfold P. now rewrite combine_fst. Qed.
Let Hsorted_entries : stable_sort ts_ltb (fst (dfwd m l [])) = map snd (stable_sort dpair_ltb P).
Proof. rewrite (sort_map snd dpair_ltb ts_ltb P) by reflexivity. unfold P. now rewrite combine_snd. Qed.
Let HO : Forall ordered_args (stable_sort ts_ltb (fst (dfwd m l []))).
Proof. apply (Permutation_Forall (Permutation_sym (sort_perm ts_ltb _))). apply dfwd_ordered, wfc_nil. Qed.

Lemma order_timely : timely order l.
Proof.
  rewrite Horder. split; [apply sort_perm|].
  assert (I : forall a, earlier a a = false) by (intros; apply SFltb_irr).
  assert (T : forall a b c, earlier a b = true -> earlier b c = true -> earlier a c = true) by (intros a b c; apply SFltb_trans).
  assert (Ng : forall a b c, proper_deed b -> earlier a c = true -> earlier a b = true \/ earlier b c = true) by (intros a b c Hb; apply SFltb_neg, lts_not_nan, Hb).
  split.
  - apply (sort_sorted earlier proper_deed I T Ng). exact HP.
  - intros a Ha. apply (sort_stable earlier proper_deed Ng a l); [|exact HP]. rewrite Forall_forall in HP. auto.
Qed.
Lemma order_portrays : Forall2 (portrays m) order entries.
Proof.
  unfold entries. rewrite Hsorted_entries.
  apply (Forall2_trans (portrays m) (fun e e' => same_but_args e e' /\ keeps e e') (portrays m)) with (l2 := map snd (stable_sort dpair_ltb P)).
  - intros d e e' H [H1 H2]. eapply portrays_after; eassumption.
  - unfold order. apply Forall_Forall2. apply (Permutation_Forall (Permutation_sym (sort_perm dpair_ltb P))). exact HPS.
  - pose proof (lfill_same (map snd (stable_sort dpair_ltb P))) as A. rewrite <- Hsorted_entries in *. pose proof (proj1 (lfill_keeps _ HO)) as B. clear -A B. 
    induction A; inversion B; subst; constructor; auto.
Qed.
Lemma order_counts p name : sole m p name l -> StronglySorted (fun a b => earlier b a = false) (filter (counts m name) l) ->
  forall o1 d o2 e1 e e2, order = o1 ++ d :: o2 -> entries = e1 ++ e :: e2 -> length e1 = length o1 -> counts m name d = true ->
  exists a, en_args e = Some a /\ ordered str_ltb a /\ forall s, mfind str_ltb s a = value_at (gives_to m p name s) (o1 ++ [d]) o2.
Proof.
  intros Hsole HS o1 d o2 e1 e e2 Ho He Hlen Hd.
  assert (Hf : filter (counts m name) order = filter (counts m name) l) by (rewrite Horder; apply sort_filter; exact HS).
  assert (HFs : filter (isn name) (stable_sort ts_ltb (fst (dfwd m l []))) = filter (isn name) (fst (dfwd m l []))).
  { apply sort_filter. clear -HS. pose proof (dfwd_portrays m l [] wfc_nil) as H2. induction H2 as [|r x k es H1 H2 IH]; cbn [filter]; [constructor|].
    rewrite (portrays_isn _ _ _ _ H1). cbn [filter] in HS. destruct (counts m name r) eqn:Er; [|auto].
    inversion HS as [|? ? HS' HF]; subst. constructor; [apply IH; auto|]. apply Forall_forall. intros y Hy. apply filter_In in Hy. destruct Hy as [Hy1 Hy2].
    rewrite Forall_forall in HF. clear -H1 H2 Hy1 Hy2 HF.
    induction H2 as [|r' e' k es H3 H4 IH]; [destruct Hy1|]. destruct Hy1 as [->|Hy1].
    - rewrite (portrays_isn _ _ _ _ H3) in Hy2. unfold ts_ltb. rewrite (po_time _ _ _ H1), (po_time _ _ _ H3). apply HF. cbn. rewrite Hy2. now left.
    - apply IH; auto. intros z Hz. apply HF. cbn. destruct (counts m name r'); [now right|auto]. }
  pose proof (dfwd_args m name l [] wfc_nil) as HA. change (cm_of name []) with (@nil (list ascii * Z)) in HA. rewrite <- HFs in HA.
  destruct (lfill_args name _ HO _ HA) as [HE _]. fold entries in HE.
  pose proof order_portrays as H2. rewrite Ho, He in H2. apply Forall2_cut in H2 as (H3 & H4 & H5); [|exact Hlen].
  assert (Hcut : length (filter (isn name) e1) = length (filter (counts m name) o1)).
  { clear -H3. induction H3 as [|a b x y Hab H IH]; [reflexivity|]. cbn [filter]. rewrite (portrays_isn _ _ _ _ Hab). destruct (counts m name a); cbn; auto. }
  rewrite <- Hf, Ho, filter_app in HE. cbn [filter] in HE. rewrite Hd, map_app in HE. cbn [map] in HE.
  rewrite He, filter_app in HE. cbn [filter] in HE. rewrite (portrays_isn _ _ _ _ H4), Hd in HE. rewrite map_app in HE. cbn [map] in HE.
  set (q1 := map (dkv m) (filter (counts m name) o1)) in *. set (q2 := map (dkv m) (filter (counts m name) o2)) in *.
  assert (Hq : length (map en_args (filter (isn name) e1)) = length q1) by (unfold q1; rewrite !map_length; exact Hcut).
  assert (Hnth : nth_error (map Some (rfill (scan [] (q1 ++ dkv m d :: q2)))) (length q1) = Some (en_args e)).
  { rewrite <- HE, nth_error_app2 by lia. now rewrite Hq, Nat.sub_diag. }
  rewrite nth_error_map in Hnth. destruct (nth_error (rfill (scan [] (q1 ++ dkv m d :: q2))) (length q1)) as [a|] eqn:Ea; [|discriminate].
  cbn in Hnth. injection Hnth as Hnth. exists a. split; [symmetry; exact Hnth|]. split.
  - apply nth_error_In in Ea. assert (HR : Forall (ordered str_ltb) (rfill (scan [] (q1 ++ dkv m d :: q2)))) by (apply rfill_ordered, scan_ordered, ordered_nil).
    rewrite Forall_forall in HR. auto.
  - intros s. rewrite (passes_value s q1 (dkv m d) q2 [] a (ordered_nil _) Ea). unfold value_at.
    assert (HPo : sole m p name order) by (apply (Permutation_Forall (Permutation_sym (proj1 order_timely))); exact Hsole).
    rewrite Ho in HPo. apply Forall_app in HPo. destruct HPo as [Hp1 Hp2]. inversion Hp2 as [|? ? Hp3 Hp4]; subst.
    assert (Hp5 : sole m p name (o1 ++ [d])) by (apply Forall_app; split; auto).
    rewrite (proj1 (latest_counts m p name s _ Hp5)), (proj2 (latest_counts m p name s _ Hp4)).
    rewrite filter_app, map_app. cbn [filter]. rewrite Hd. cbn [map mfind]. reflexivity.
Qed.
End Finish.

Lemma convert_fwd m es l : Forall2 tells (ours es) l -> lconvert m es = FDone (fst (lfill (stable_sort ts_ltb (fst (dfwd m l []))))).
Proof. intro H. unfold lconvert. rewrite (lloop_fwd m es l [] [] H). reflexivity. Qed.
Lemma tells_proper es l : Forall2 tells es l -> Forall proper_deed l.
Proof. induction 1 as [|e d es l H]; constructor; auto. exact (t_number _ _ H). Qed.

Lemma interval_lemma m es l : Forall2 tells (ours es) l -> exists res order, lconvert m es = FDone res /\ timely order l /\ Forall2 (portrays m) order res.
Proof.
  intro H. rewrite (convert_fwd m es l H). pose proof (tells_proper _ _ H) as HP. eexists _, _. split; [reflexivity|]. split; [apply (order_timely m l HP)|apply (order_portrays m l)].
Qed.
Lemma counters_lemma m es l : Forall2 tells (ours es) l ->
  exists res order, lconvert m es = FDone res /\ timely order l /\ Forall2 (portrays m) order res /\
  forall p name, sole m p name l -> StronglySorted (fun a b => earlier b a = false) (filter (counts m name) l) ->
  forall o1 d o2 e1 e e2, order = o1 ++ d :: o2 -> res = e1 ++ e :: e2 -> length e1 = length o1 -> counts m name d = true -> faithful m o1 d o2 e.
Proof.
  intro H. rewrite (convert_fwd m es l H). pose proof (tells_proper _ _ H) as HP. eexists _, _. split; [reflexivity|]. split; [apply (order_timely m l HP)|]. split; [apply (order_portrays m l)|].
  intros p name Hs HS o1 d o2 e1 e e2 Ho He Hl Hd. destruct (order_counts m l HP p name Hs HS o1 d o2 e1 e e2 Ho He Hl Hd) as (a & Ha & Hor & Hv).
  assert (Hp : portrays m d e).
  { pose proof (order_portrays m l) as H2. rewrite Ho, He in H2. apply Forall2_cut in H2 as (_ & H4 & _); [exact H4|exact Hl]. }
  exists a. split; [exact Ha|]. split; [apply (ordered_NoDup _ str_order _ Hor)|]. intro s.
  assert (Ep : d_pid d = p).
  { assert (Hin : In d l) by (apply (Permutation_in _ (proj1 (order_timely m l HP))); rewrite Ho; apply in_or_app; right; left; reflexivity).
    unfold sole in Hs. rewrite Forall_forall in Hs. auto. }
  assert (En : en_name e = name). { rewrite (po_name _ _ _ Hp). unfold counts in Hd. destruct (d_kind d); try discriminate. destruct (str_eqb_spec (fst (split_series (label_of m d))) name); congruence. }
  rewrite Ep, En. apply Hv.
Qed.

(** * From the line *)
Lemma printed_lemma (strtod : str -> real_result spec_float) early p d rest e : good p -> prints d p -> strtod (p_time p) = DValue (d_time d) -> d_time d <> S754_nan ->
  rest = [] \/ rest = [ascii_of_N 10] -> parse strtod early (line_text p ++ rest) = Done e -> tells e d /\ c_domain e = scalopus_domain.
Proof.
  intros Hg (P1 & P2 & P3 & P4 & P5 & P6 & P7 & P8) Ht Hn Hr He. destruct (Ctf_proofs.line_lemma strtod early p (d_time d) rest Hg Ht Hr) as (e' & He' & E1 & _ & E2 & E3 & _ & _ & (R & _)).
  rewrite He in He'. injection He' as <-. destruct (ids_lemma strtod early p (d_time d) rest e (d_pid d) (d_tid d) Hg Ht Hr He P3 P4) as [Hp Htid].
  split; [|rewrite E2; exact P1].
  constructor; auto.
  - rewrite (R _ _ P5). rewrite Z.mod_small, N2Z.id by lia. reflexivity.
  - congruence.
  - intros z K. destruct (P8 z K) as [Hz Hv]. split; [exact Hz|]. exact (R _ _ Hv).
Qed.

(** * The window *)
Lemma lrun_app xs ys s : lrun (xs ++ ys) s = (fst (lrun ys (fst (lrun xs s))), snd (lrun xs s) ++ snd (lrun ys (fst (lrun xs s)))).
Proof.
  revert s. induction xs as [|x xs IH]; intro s; cbn [lrun app fst snd]; [destruct (lrun ys s); reflexivity|]. destruct (lstep x s) as [s' o]. rewrite IH. destruct (lrun xs s') as [s1 o1]. cbn [fst snd]. rewrite app_assoc. reflexivity.
Qed.
Lemma events_run b : forall es, only_events b -> fst (lrun b {| l_on := true; l_events := es |}) = {| l_on := true; l_events := es ++ events_in b |}.
Proof.
  induction b as [|x b IH]; intros es H; cbn; [rewrite app_nil_r; reflexivity|]. destruct (H x (or_introl eq_refl)) as (e & ->). cbn. specialize (IH (es ++ [e]) (fun y Hy => H y (or_intror Hy))).
  destruct (lrun b {| l_on := true; l_events := es ++ [e] |}). cbn in *. rewrite IH, <- app_assoc. reflexivity.
Qed.
Lemma off_run c : forall es, ~ In LStart c -> fst (lrun c {| l_on := false; l_events := es |}) = {| l_on := false; l_events := es |}.
Proof.
  induction c as [|x c IH]; intros es H; [reflexivity|]. cbn [lrun]. assert (E : fst (lstep x {| l_on := false; l_events := es |}) = {| l_on := false; l_events := es |}).
  { destruct x; try reflexivity. exfalso. apply H. left. reflexivity. }
  destruct (lstep x _) as [s o]. cbn [fst] in E. subst s. specialize (IH es (fun G => H (or_intror G))). destruct (lrun c _). exact IH.
Qed.
Lemma window_lemma a b c m : only_events b -> ends c -> exists outs, snd (lrun (a ++ LStart :: b ++ c ++ [LFinish m]) lsource0) = outs ++ [lconvert m (events_in b)].
Proof.
  intros Hb Hc. rewrite lrun_app. cbn [snd lrun lstep]. set (s := fst (lrun a lsource0)).
  assert (E : exists o, snd (lrun (b ++ c ++ [LFinish m]) {| l_on := true; l_events := [] |}) = o ++ [lconvert m (events_in b)]).
  { rewrite lrun_app. cbn [snd]. rewrite (events_run b [] Hb). cbn [app]. rewrite lrun_app. cbn [snd]. destruct Hc as [->|(x & ys & -> & Hx & Hys)].
    - cbn. eexists. reflexivity.
    - assert (Es : fst (lrun (x :: ys) {| l_on := true; l_events := events_in b |}) = {| l_on := false; l_events := events_in b |}).
      { cbn [lrun]. destruct Hx as [->|(m' & ->)]; cbn [lstep l_events]; pose proof (off_run ys (events_in b) Hys) as G; destruct (lrun ys _); exact G. }
      rewrite Es. cbn. eexists. rewrite app_assoc. reflexivity. }
  destruct E as (o & E). destruct (lrun (b ++ c ++ [LFinish m]) {| l_on := true; l_events := [] |}) as [s1 o1]. cbn [snd app] in *. rewrite E. rewrite app_assoc. eauto.
Qed.

(** Before the first start nothing is kept. *)
Lemma idle_lemma a m : ~ In LStart a -> exists outs, snd (lrun (a ++ [LFinish m]) lsource0) = outs ++ [lconvert m []].
Proof. intros H. rewrite lrun_app. cbn [snd]. unfold lsource0. rewrite (off_run a [] H). cbn. eexists. reflexivity. Qed.

(** * Cases *)
Definition one : spec_float := to_double 1.
Definition two : spec_float := to_double 2.
Definition ctf (t : spec_float) (p n : N) (name : string) (value : option N) : event spec_float :=
  {| c_line := []; c_time := Some t; c_host := []; c_domain := txt "scalopus_scope_id"; c_name := txt name; c_stream := [];
     c_context := [(txt "vpid", p); (txt "pthread_id", 40%N)]; c_data := (txt "id", n) :: match value with Some v => [(txt "value", v)] | None => [] end |}.
Definition act (t : spec_float) (p n : N) (k : kind) : deed := {| d_time := t; d_pid := p; d_tid := 40; d_id := n; d_kind := k |}.
Lemma ctf_tells t p n k : t <> S754_nan -> (p < 2 ^ 31)%N -> (n < 2 ^ 32)%N -> (forall z, k = KCount z -> (- 2 ^ 63 <= z < 2 ^ 63)%Z) ->
  tells (ctf t p n (kind_name k) match k with KCount z => Some (Z.to_N (z mod 2 ^ 64)) | _ => None end) (act t p n k).
Proof.
  intros Ht Hp Hn Hk. constructor; auto. cbn [d_kind act]. intros z ->. split; [auto|]. reflexivity.
Qed.
Definition names_78 : mapping := [(7%Z, [(1%N, txt "load/a"); (3%N, txt "scope")]); (8%Z, [(1%N, txt "load/b")])].
(** Two processes each have a counter named load. *)
Definition mixed : list (event spec_float) := [ctf one 7 1 "count_event" (Some 5%N); ctf two 8 1 "count_event" (Some 6%N)].
Definition mixed_deeds : list deed := [act one 7 1 (KCount 5); act two 8 1 (KCount 6)].
Lemma mixed_tells : Forall2 tells (ours mixed) mixed_deeds.
Proof.
  replace (ours mixed) with mixed by (vm_compute; reflexivity). repeat apply Forall2_cons; try apply Forall2_nil.
  - refine (ctf_tells one 7 1 (KCount 5) _ _ _ _); [vm_compute; discriminate|lia|lia|]. intros z E. injection E as <-. lia.
  - refine (ctf_tells two 8 1 (KCount 6) _ _ _ _); [vm_compute; discriminate|lia|lia|]. intros z E. injection E as <-. lia.
Qed.
Lemma mixed_lemma : exists m es l, Forall2 tells (ours es) l /\ exists res x, lconvert m es = FDone res /\ In x res /\ en_pid x = 8%Z /\
  (forall d, In d l -> gives_to m 8 (en_name x) (txt "a") d = None) /\ exists a, en_args x = Some a /\ mfind str_ltb (txt "a") a = Some 5%Z.
Proof.
  exists names_78, mixed, mixed_deeds. split; [exact mixed_tells|]. eexists _, _. split; [vm_compute; reflexivity|]. split; [right; left; reflexivity|]. split; [reflexivity|]. split.
  - intros d [<-|[<-|[]]]; vm_compute; reflexivity.
  - eexists. split; vm_compute; reflexivity.
Qed.
(** An event of this domain with another name, or without its process id, makes the conversion fail. *)
Lemma unknown_lemma : exists m e, c_domain e = scalopus_domain /\ lconvert m [e; ctf one 7 3 "scope_entry" None] = FThrows.
Proof. exists names_78, (ctf one 7 3 "other" None). split; vm_compute; reflexivity. Qed.
Definition no_pid : event spec_float :=
  {| c_line := []; c_time := Some one; c_host := []; c_domain := txt "scalopus_scope_id"; c_name := txt "scope_entry"; c_stream := []; c_context := []; c_data := [(txt "id", 3%N)] |}.
Lemma no_pid_lemma : forall m es, lconvert m (no_pid :: es) = FThrows.
Proof. reflexivity. Qed.
(** A scope and two values of a counter of one process, with an event of something else among them. *)
Definition plain_events : list (event spec_float) :=
  [ctf two 7 1 "count_event" (Some 18446744073709551611%N); event0 (txt "rubbish"); ctf one 7 3 "scope_entry" None; ctf two 7 3 "scope_exit" None].
Definition plain_deeds : list deed := [act two 7 1 (KCount (-5)); act one 7 3 KBegin; act two 7 3 KEnd].
Example plain_tells : Forall2 tells (ours plain_events) plain_deeds.
Proof.
  replace (ours plain_events) with [ctf two 7 1 "count_event" (Some 18446744073709551611%N); ctf one 7 3 "scope_entry" None; ctf two 7 3 "scope_exit" None] by (vm_compute; reflexivity).
  repeat apply Forall2_cons; try apply Forall2_nil.
  - refine (ctf_tells two 7 1 (KCount (-5)) _ _ _ _); [vm_compute; discriminate|lia|lia|]. intros z E. injection E as <-. lia.
  - refine (ctf_tells one 7 3 KBegin _ _ _ _); [vm_compute; discriminate|lia|lia|discriminate].
  - refine (ctf_tells two 7 3 KEnd _ _ _ _); [vm_compute; discriminate|lia|lia|discriminate].
Qed.
Example plain_result : match lconvert names_78 plain_events with
  | FDone [a; b; c] => en_ph a = "B"%char /\ en_ph b = "C"%char /\ en_args b = Some [(txt "a", (-5)%Z)] /\ en_ph c = "E"%char
  | _ => False end.
Proof. vm_compute. repeat split. Qed.
Example plain_sole : sole names_78 7 (txt "load") plain_deeds.
Proof. repeat apply Forall_cons; try apply Forall_nil; intros; reflexivity. Qed.
Example plain_window : only_events (map LEvent plain_events) /\ ends [LStop; LEvent no_pid].
Proof.
  split; [intros x Hx; apply in_map_iff in Hx as (e & <- & _); eauto|]. right. eexists _, _. split; [reflexivity|]. split; [left; reflexivity|]. intros [G|[]]. discriminate.
Qed.
Definition printed_count : printed :=
  {| p_time := txt "2.0"; p_host := txt "eagle"; p_domain := txt "scalopus_scope_id"; p_name := txt "count_event"; p_stream := [(txt "cpu_id", FInt 2)];
     p_context := [(txt "vpid", FInt 7); (txt "pthread_id", FInt 40)]; p_data := [(txt "id", FInt 1); (txt "value", FInt (-5))] |}.
Example printed_count_ok : good printed_count /\ prints (act two 7 1 (KCount (-5))) printed_count.
Proof.
  split.
  - do 4 (split; [avoid|]).
    assert (G : forall fs, Forall good_field fs -> NoDup (map fst fs) -> good_fields fs) by (intros; split; assumption).
    split; [|split]; apply G; try (repeat (apply NoDup_cons; [cbn [map fst In]; intuition discriminate|]); apply NoDup_nil);
    repeat apply Forall_cons; try apply Forall_nil; (split; [discriminate|split; [avoid|cbn [snd]; first [split; [discriminate|reflexivity] | avoid]]]).
  - unfold prints. cbn [d_kind act kind_name p_domain p_name p_context p_data printed_count d_pid d_tid d_id]. repeat split; cbn; auto; try lia; injection H as <-; auto; lia.
Qed.
