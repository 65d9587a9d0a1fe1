From Coq Require Import String List Arith NArith ZArith Ascii Bool Lia Floats.SpecFloat Sorting.Permutation Sorting.Sorted.
Import ListNotations.
From Verif Require Import OMap_model OMap_proofs TraceEvent_model Names_model Names_proofs Native_model Native_spec.
Local Open Scope nat_scope.

(** * Time stamps are numbers *)
Lemma shr_1_nonneg r : (0 <= shr_m r)%Z -> (0 <= shr_m (shr_1 r))%Z.
Proof. destruct r as [m b s]. cbn. intros H. destruct m as [|p|p]; cbn; try lia. destruct p; cbn; lia. Qed.
Lemma shr_nonneg r e n : (0 <= shr_m r)%Z -> (0 <= shr_m (fst (shr r e n)))%Z.
Proof.
  intros H. unfold shr. destruct n as [|p|p]; auto. cbn [fst].
  assert (forall p r, (0 <= shr_m r)%Z -> (0 <= shr_m (iter_pos shr_1 p r))%Z).
  { clear. induction p as [p IH|p IH|]; intros r H; cbn; auto using shr_1_nonneg. }
  auto.
Qed.
Lemma record_of_loc_m m l : shr_m (shr_record_of_loc m l) = m.
Proof. destruct l as [|[| |]]; reflexivity. Qed.
Lemma shr_fexp_nonneg prec emax m e l : (0 <= m)%Z -> (0 <= shr_m (fst (shr_fexp prec emax m e l)))%Z.
Proof. intros H. unfold shr_fexp. apply shr_nonneg. now rewrite record_of_loc_m. Qed.
Lemma round_nonneg m l : (0 <= m)%Z -> (0 <= round_nearest_even m l)%Z.
Proof. intros H. unfold round_nearest_even. destruct l as [|[| |]]; try lia. destruct (Z.even m); lia. Qed.
Lemma round_aux_not_nan prec emax s m e l : (0 <= m)%Z -> binary_round_aux prec emax s m e l <> S754_nan.
Proof.
  intros H. unfold binary_round_aux.
  pose proof (shr_fexp_nonneg prec emax m e l H) as H1. destruct (shr_fexp prec emax m e l) as [r1 e1]. cbn [fst] in H1.
  pose proof (shr_fexp_nonneg prec emax (round_nearest_even (shr_m r1) (loc_of_shr_record r1)) e1 loc_Exact (round_nonneg _ _ H1)) as H2.
  destruct (shr_fexp prec emax (round_nearest_even (shr_m r1) (loc_of_shr_record r1)) e1 loc_Exact) as [r2 e2]. cbn [fst] in H2.
  destruct (shr_m r2) as [|p|p]; [discriminate| |lia]. destruct (e2 <=? emax - prec)%Z; discriminate.
Qed.
Lemma to_double_not_nan z : to_double z <> S754_nan.
Proof.
  unfold to_double, binary_normalize. destruct z as [|p|p]; [discriminate| |]; unfold binary_round;
    destruct (shl_align _ _ _) as [mz ez]; apply round_aux_not_nan; lia.
Qed.
Lemma thousand : to_double 1000 = S754_finite false 8796093022208000 (-43).
Proof. vm_compute. reflexivity. Qed.
Lemma ts_not_nan n : ts_of n <> S754_nan.
Proof.
  unfold ts_of. rewrite thousand. pose proof (to_double_not_nan (Z.of_N n)) as H. unfold SFdiv.
  destruct (to_double (Z.of_N n)) as [s|s| |s m e]; try discriminate; [congruence|].
  destruct (SFdiv_core_binary 53 1024 (Z.pos m) e (Z.pos 8796093022208000) (-43)) as [[mz ez] lz] eqn:E.
  apply round_aux_not_nan. unfold SFdiv_core_binary in E.
  match type of E with context[Z.div_eucl ?a ?b] => pose proof (Z_div_mod a b) as Hd; assert (Ha : (0 <= a)%Z) end.
  { match goal with |- context[match ?x with _ => _ end] => destruct x; lia || (cbn; lia) || idtac end.
    all: try (apply Z.shiftl_nonneg; lia). all: cbn; lia. }
  match type of E with context[Z.div_eucl ?a ?b] => destruct (Z.div_eucl a b) as [q r] eqn:Eq end.
  injection E as <- _ _. specialize (Hd ltac:(lia)). destruct Hd as [Hd1 Hd2].
  match type of Ha with (0 <= ?a)%Z => assert (a = 8796093022208000 * q + r)%Z by exact Hd1 end. nia.
Qed.

Lemma SFltb_irr a : SFltb a a = false.
Proof.
  unfold SFltb, SFcompare. destruct a as [s|s| |s m e]; auto; destruct s; auto; rewrite Z.compare_refl;
    change (Pos.compare_cont Eq m m) with (m ?= m)%positive; now rewrite Pos.compare_refl.
Qed.
(** A number that orders the finite numbers of one sign as the comparison does. *)
Definition lexc (e1 : Z) (m1 : positive) (e2 : Z) (m2 : positive) : comparison :=
  match (e1 ?= e2)%Z with Eq => (m1 ?= m2)%positive | c => c end.
Lemma lexc_lt e1 m1 e2 m2 : lexc e1 m1 e2 m2 = Lt <-> (e1 < e2 \/ (e1 = e2 /\ Z.pos m1 < Z.pos m2))%Z.
Proof. unfold lexc. destruct (Z.compare_spec e1 e2); [destruct (Pos.compare_spec m1 m2)| |]; split; intros; try discriminate; auto; try lia. Qed.
Lemma lexc_gt e1 m1 e2 m2 : lexc e1 m1 e2 m2 = Gt <-> (e2 < e1 \/ (e1 = e2 /\ Z.pos m2 < Z.pos m1))%Z.
Proof. unfold lexc. destruct (Z.compare_spec e1 e2); [destruct (Pos.compare_spec m1 m2)| |]; split; intros; try discriminate; auto; try lia. Qed.

Definition lt_rel (a b : spec_float) : Prop :=
  match a, b with
  | S754_nan, _ | _, S754_nan => False
  | S754_infinity s, S754_infinity s' => s = true /\ s' = false
  | S754_infinity s, _ => s = true
  | _, S754_infinity s => s = false
  | S754_zero _, S754_zero _ => False
  | S754_zero _, S754_finite s _ _ => s = false
  | S754_finite s _ _, S754_zero _ => s = true
  | S754_finite s m e, S754_finite s' m' e' =>
      if s then if s' then (e' < e \/ (e = e' /\ Z.pos m' < Z.pos m))%Z else True
      else if s' then False else (e < e' \/ (e = e' /\ Z.pos m < Z.pos m'))%Z
  end.
Lemma SFltb_rel a b : SFltb a b = true <-> lt_rel a b.
Proof.
  unfold SFltb. destruct a as [s|s| |s m e], b as [s'|s'| |s' m' e']; cbn;
    try (destruct s; try destruct s'; split; intros; try discriminate; intuition discriminate).
  all: try (split; intros; try discriminate; intuition discriminate).
  all: try (destruct s'; split; intros; try discriminate; auto; intuition discriminate).
  destruct s, s'.
  - pose proof (lexc_gt e m e' m') as H. unfold lexc in H. change (Pos.compare_cont Eq m m') with (m ?= m')%positive.
    rewrite <- (H : _ <-> _). destruct (e ?= e')%Z; try (split; intros; try discriminate; auto; fail).
    destruct (m ?= m')%positive; cbn; split; intros; try discriminate; auto.
  - split; auto.
  - split; intros; [discriminate|contradiction].
  - pose proof (lexc_lt e m e' m') as H. unfold lexc in H. change (Pos.compare_cont Eq m m') with (m ?= m')%positive.
    rewrite <- H. destruct (e ?= e')%Z; try (split; intros; try discriminate; auto; fail).
    destruct (m ?= m')%positive; cbn; split; intros; try discriminate; auto.
Qed.

Lemma SFltb_trans a b c : SFltb a b = true -> SFltb b c = true -> SFltb a c = true.
Proof.
  rewrite !SFltb_rel. destruct a as [s|s| |s m e], b as [s'|s'| |s' m' e'], c as [s''|s''| |s'' m'' e'']; cbn; intros H1 H2;
    try contradiction; try destruct s; try destruct s'; try destruct s''; try contradiction; try discriminate; auto;
    try (intuition discriminate); lia.
Qed.
Lemma SFltb_neg a b c : b <> S754_nan -> SFltb a c = true -> SFltb a b = true \/ SFltb b c = true.
Proof.
  rewrite !SFltb_rel. intros Hb. destruct a as [s|s| |s m e], b as [s'|s'| |s' m' e'], c as [s''|s''| |s'' m'' e'']; cbn; intros H1;
    try contradiction; try congruence; try destruct s; try destruct s'; try destruct s''; try contradiction; try discriminate; auto;
    try (intuition discriminate); lia.
Qed.

(** * Stable sorting *)
Section Sorting.
Context {A : Type}.
Variable ltb : A -> A -> bool.
Variable ok : A -> Prop.
Hypothesis irr : forall a, ltb a a = false.
Hypothesis trans : forall a b c, ltb a b = true -> ltb b c = true -> ltb a c = true.
Hypothesis neg : forall a b c, ok b -> ltb a c = true -> ltb a b = true \/ ltb b c = true.

Lemma asym a b : ltb a b = true -> ltb b a = false.
Proof. intros H. destruct (ltb b a) eqn:E; auto. rewrite <- (irr a). symmetry. eauto. Qed.

Lemma place_perm x l : Permutation (place ltb x l) (x :: l).
Proof.
  induction l as [|y l IH]; cbn; [auto|]. destruct (ltb y x); [|auto]. rewrite IH. apply perm_swap.
Qed.
Lemma sort_perm l : Permutation (stable_sort ltb l) l.
Proof. induction l as [|x l IH]; cbn; [auto|]. rewrite place_perm. now constructor. Qed.

Definition sorted (l : list A) : Prop := StronglySorted (fun a b => ltb b a = false) l.

Lemma place_sorted x l : ok x -> Forall ok l -> sorted l -> sorted (place ltb x l).
Proof.
  intros Hx Hl. unfold sorted. induction 1 as [|y l HS IH HF]; cbn; [repeat constructor|].
  inversion Hl as [|? ? Hy Hl']; subst. destruct (ltb y x) eqn:E.
  - constructor; [auto|]. rewrite Forall_forall in *. intros z Hz. apply (Permutation_in _ (place_perm x l)) in Hz.
    destruct Hz as [<-|Hz]; [now apply asym|auto].
  - constructor; [constructor; auto|]. constructor; [auto|]. rewrite Forall_forall in *. intros z Hz.
    destruct (ltb z x) eqn:Ez; auto. specialize (HF z Hz). destruct (neg z y x Hy Ez) as [H|H]; congruence.
Qed.
Lemma sort_sorted l : Forall ok l -> sorted (stable_sort ltb l).
Proof.
  induction 1 as [|x l Hx Hl IH]; cbn; [constructor|]. apply place_sorted; auto.
  apply (Permutation_Forall (Permutation_sym (sort_perm l))). exact Hl.
Qed.

Lemma place_skip (P : A -> bool) x l : P x = false -> filter P (place ltb x l) = filter P l.
Proof.
  intros H. induction l as [|y l IH]; cbn; [now rewrite H|]. destruct (ltb y x); cbn; rewrite ?H, ?IH; auto.
Qed.
(** Selected elements keep their relative order if none of them is later than one that follows it. *)
Lemma sort_filter (P : A -> bool) l : sorted (filter P l) -> filter P (stable_sort ltb l) = filter P l.
Proof.
  induction l as [|x l IH]; [auto|]. cbn [filter]. change (stable_sort ltb (x :: l)) with (place ltb x (stable_sort ltb l)).
  intros H. destruct (P x) eqn:E; [|rewrite place_skip; auto].
  inversion H as [|? ? HS HF]; subst. rewrite <- IH by auto. rewrite <- IH in HF by auto. clear IH H HS.
  induction (stable_sort ltb l) as [|y s IHs]; cbn [place filter] in *; [now rewrite E|].
  destruct (P y) eqn:Ey.
  - inversion HF as [|? ? H1 H2]; subst. rewrite H1. cbn. now rewrite E, Ey.
  - destruct (ltb y x); cbn; rewrite ?E, ?Ey; auto.
Qed.
Lemma sort_stable a l : ok a -> Forall ok l -> filter (fun b => negb (ltb a b) && negb (ltb b a)) (stable_sort ltb l) =
                                  filter (fun b => negb (ltb a b) && negb (ltb b a)) l.
Proof.
  intros Ha Hl. apply sort_filter. unfold sorted.
  assert (H : forall x y, ok x -> ok y -> negb (ltb a x) && negb (ltb x a) = true -> negb (ltb a y) && negb (ltb y a) = true -> ltb y x = false).
  { intros x y Hx Hy H1 H2. apply andb_true_iff in H1, H2. rewrite !negb_true_iff in *. destruct H1, H2.
    destruct (ltb y x) eqn:E; auto. destruct (neg y a x Ha E); congruence. }
  induction Hl as [|x l Hx Hl IH]; cbn; [constructor|].
  destruct (negb (ltb a x) && negb (ltb x a)) eqn:E; [|auto]. constructor; [auto|]. apply Forall_forall. intros y Hy.
  apply filter_In in Hy. destruct Hy as [Hy1 Hy2]. apply H; auto. rewrite Forall_forall in Hl. auto.
Qed.
End Sorting.

Lemma sort_map {A B} (f : A -> B) (la : A -> A -> bool) (lb : B -> B -> bool) l :
  (forall x y, In x l -> In y l -> la x y = lb (f x) (f y)) -> map f (stable_sort la l) = stable_sort lb (map f l).
Proof.
  induction l as [|x l IH]; intros H; [auto|]. cbn [map].
  change (stable_sort la (x :: l)) with (place la x (stable_sort la l)).
  change (stable_sort lb (f x :: map f l)) with (place lb (f x) (stable_sort lb (map f l))).
  rewrite <- IH by (intros; apply H; cbn; auto).
  assert (Hp : forall y, In y (stable_sort la l) -> la y x = lb (f y) (f x)).
  { intros y Hy. apply H; [|now left]. right. apply (Permutation_in _ (sort_perm la l)). exact Hy. }
  revert Hp. generalize (stable_sort la l). clear. intros s. induction s as [|y s IHs]; intros Hp; [auto|].
  cbn [place map]. rewrite Hp by now left. destruct (lb (f y) (f x)); cbn [map]; [|auto]. f_equal. apply IHs. intros z Hz. apply Hp. now right.
Qed.

(** * The counters of the pass *)
Lemma str_eqb_spec a b : reflect (a = b) (str_eqb a b).
Proof. unfold str_eqb. destruct (list_eq_dec ascii_dec a b); constructor; auto. Qed.
Lemma str_eqb_refl a : str_eqb a a = true.
Proof. destruct (str_eqb_spec a a); congruence. Qed.

Record wf_pc (c : process_counter) : Prop := {
  wf_outer : ordered Z.ltb c;
  wf_mid : forall pid, ordered str_ltb (of_pid pid c);
  wf_in : forall pid name, ordered str_ltb (of_name pid name c) }.
Lemma wf_nil : wf_pc [].
Proof. constructor; intros; apply ordered_nil. Qed.

Lemma of_pid_set pid pid' name s c : wf_pc c ->
  of_pid pid (set_name pid' name s c) = if (pid =? pid')%Z then minsert str_ltb name s (of_pid pid c) else of_pid pid c.
Proof.
  intros [W1 W2 W3]. unfold set_name, of_pid at 1. destruct (Z.eqb_spec pid pid') as [->|Hd].
  - now rewrite (find_insert_same _ Z_order).
  - now rewrite (find_insert_other _ Z_order).
Qed.
Lemma of_name_set pid pid' name name' s c : wf_pc c ->
  of_name pid name (set_name pid' name' s c) = if (pid =? pid')%Z && str_eqb name name' then s else of_name pid name c.
Proof.
  intros W. unfold of_name at 1. rewrite of_pid_set by auto. destruct (Z.eqb_spec pid pid') as [->|Hd]; cbn [andb]; [|reflexivity].
  destruct (str_eqb_spec name name') as [->|Hn].
  - now rewrite (find_insert_same _ str_order).
  - rewrite (find_insert_other _ str_order); auto. apply wf_mid; auto.
Qed.
Lemma wf_set pid name s c : wf_pc c -> ordered str_ltb s -> wf_pc (set_name pid name s c).
Proof.
  intros W Hs. constructor.
  - apply (ordered_insert _ Z_order), wf_outer; auto.
  - intros p. rewrite of_pid_set by auto. destruct (p =? pid)%Z; [apply (ordered_insert _ str_order)|]; apply wf_mid; auto.
  - intros p n. rewrite of_name_set by auto. destruct ((p =? pid)%Z && str_eqb n name); auto. apply wf_in; auto.
Qed.

Lemma merge_find : forall b a s, ordered str_ltb a -> ordered str_ltb b ->
  mfind str_ltb s (merge_series a b) = (match mfind str_ltb s a with Some v => Some v | None => mfind str_ltb s b end)
  /\ ordered str_ltb (merge_series a b).
Proof.
  unfold merge_series. induction b as [|[k v] b IH]; intros a s Ha Hb; cbn [fold_left].
  - split; auto. now destruct (mfind str_ltb s a).
  - inversion Hb as [|? ? Hb' Hf]; subst.
    assert (Ha' : ordered str_ltb (add_series a (k, v))).
    { unfold add_series. cbn [fst snd]. destruct (mfind str_ltb k a); auto. now apply (ordered_insert _ str_order). }
    destruct (IH (add_series a (k, v)) s Ha' Hb') as [E O]. split; auto. rewrite E. clear E O IH.
    unfold add_series. cbn [fst snd]. destruct (list_eq_dec ascii_dec s k) as [->|Hd].
    + assert (Hk : mfind str_ltb k ((k, v) :: b) = Some v) by (cbn; now rewrite (so_irr _ str_order)).
      destruct (mfind str_ltb k a) as [x|] eqn:Ex; [now rewrite Ex|]. rewrite (find_insert_same _ str_order). now rewrite Hk.
    + assert (Hk : mfind str_ltb s ((k, v) :: b) = mfind str_ltb s b).
      { cbn. destruct (key_case _ str_order s k) as [(H1 & H2 & _)|[(H1 & H2 & _)|(_ & _ & H)]]; [| |congruence]; rewrite H1; [|now rewrite H2].
        symmetry. apply find_none_above. rewrite Forall_forall in *. intros x Hx. specialize (Hf x Hx). unfold lt_keys in Hf. cbn in Hf.
        eapply (so_trans _ str_order); eauto. }
      rewrite Hk. destruct (mfind str_ltb k a) as [x|] eqn:Ex; [auto|]. now rewrite (find_insert_other _ str_order).
Qed.

(** * One event *)
Definition r_split (m : mapping) (r : rev_t) : list ascii * list ascii := split_series (scope_name m (r_pid r) (te_id (r_ev r))).
Definition r_val (r : rev_t) : Z := match te_value (r_ev r) with Some z => z | None => 0%Z end.
Definition isk (pid : Z) (name : list ascii) (e : entry) : bool := Ascii.eqb (en_ph e) "C" && (en_pid e =? pid)%Z && str_eqb (en_name e) name.

Lemma conv_event_proper m r cv : wf_pc cv -> proper (r_ev r) ->
  exists e cv', conv_event m (r_pid r) (r_tid r) (r_ev r) cv = EOk e cv' /\ shows m r e /\ wf_pc cv' /\
    (forall pid name, of_name pid name cv' = if is_counter m pid name r then minsert str_ltb (snd (r_split m r)) (r_val r) (of_name pid name cv) else of_name pid name cv) /\
    (te_type (r_ev r) = COUNTER -> en_args e = Some (of_name (r_pid r) (en_name e) cv')).
Proof.
  intros W [Hr Hv]. unfold conv_event. destruct r as [[pid tid] [tm id ty v]]. cbn [r_pid r_tid r_ev fst snd te_type te_time te_id te_value] in *.
  assert (Hty : ty = 1%N \/ ty = 2%N \/ ty = 3%N \/ ty = 4%N \/ ty = 5%N \/ ty = 6%N) by lia.
  assert (Hno : ty <> COUNTER -> forall p n, is_counter m p n (pid, tid, {| te_time := tm; te_id := id; te_type := ty; te_value := v |}) = false).
  { intros Hd p n. unfold is_counter. cbn [r_ev snd te_type]. apply N.eqb_neq in Hd. rewrite Hd. now rewrite andb_false_r. }
  destruct Hty as [->|[->|[->|[->|[->| ->]]]]]; cbn [N.eqb Pos.eqb SCOPE_ENTRY SCOPE_EXIT MARK_GLOBAL MARK_PROCESS MARK_THREAD COUNTER].
  6: { unfold r_split, r_val. cbn [r_pid r_tid r_ev fst snd te_type te_time te_id te_value].
       destruct (split_series (scope_name m pid id)) as [c s] eqn:Es. destruct v as [z|]; [|exfalso; now apply Hv].
       eexists _, _. split; [reflexivity|]. split; [|split; [|split]].
       - constructor; cbn; auto; [constructor|now rewrite Es|]. split; [reflexivity|discriminate].
       - apply wf_set; auto. apply (ordered_insert _ str_order). now apply wf_in.
       - intros p n. rewrite of_name_set by auto. unfold is_counter. cbn [r_pid r_ev fst snd te_type te_id]. rewrite N.eqb_refl, andb_true_r.
         rewrite Z.eqb_sym. destruct (Z.eqb_spec pid p) as [->|Hd]; cbn [andb]; auto. rewrite Es. cbn [fst].
         destruct (str_eqb_spec c n) as [->|Hn]; [now rewrite str_eqb_refl|]. destruct (str_eqb_spec n c); congruence.
       - intros _. cbn [en_args en_name]. rewrite of_name_set by auto. now rewrite Z.eqb_refl, str_eqb_refl. }
  all: eexists _, cv; split; [reflexivity|]; split; [constructor; cbn; auto; [constructor|split; [congruence|discriminate]]|]; split; [exact W|]; split;
    [intros p n; now rewrite Hno|intros; discriminate].
Qed.

(** * All events, in one row *)
Fixpoint fwd (m : mapping) (l : list rev_t) (cv : process_counter) : list entry * process_counter :=
  match l with
  | [] => ([], cv)
  | r :: l' => match conv_event m (r_pid r) (r_tid r) (r_ev r) cv with
               | EOk e cv' => let (es, cv'') := fwd m l' cv' in (e :: es, cv'')
               | _ => ([], cv)
               end
  end.
Definition propers (l : list rev_t) : Prop := Forall (fun r => proper (r_ev r)) l.

Lemma conv_events_fwd m pid tid : forall evs res cv, wf_pc cv -> Forall proper evs ->
  let p := fwd m (map (fun ev => (pid, tid, ev)) evs) cv in conv_events m pid tid evs res cv = PassOn (res ++ fst p) (snd p) /\ wf_pc (snd p).
Proof.
  induction evs as [|ev evs IH]; intros res cv W HP; cbn zeta; cbn [map fwd conv_events]; [now rewrite app_nil_r|].
  inversion HP as [|? ? H1 H2]; subst. change (r_pid (pid, tid, ev)) with pid. change (r_tid (pid, tid, ev)) with tid. change (r_ev (pid, tid, ev)) with ev.
  destruct (conv_event_proper m (pid, tid, ev) cv W H1) as (e & cv' & E & _ & W' & _).
  change (r_pid (pid, tid, ev)) with pid in E. change (r_tid (pid, tid, ev)) with tid in E. change (r_ev (pid, tid, ev)) with ev in E.
  rewrite E. destruct (IH (res ++ [e]) cv' W' H2) as [E2 W2]. rewrite E2.
  destruct (fwd m (map (fun ev0 => (pid, tid, ev0)) evs) cv') as [es cv'']. cbn [fst snd] in *. now rewrite <- app_assoc.
Qed.

Lemma fwd_app m : forall a b cv, wf_pc cv -> propers a ->
  fwd m (a ++ b) cv = (fst (fwd m a cv) ++ fst (fwd m b (snd (fwd m a cv))), snd (fwd m b (snd (fwd m a cv)))) /\ wf_pc (snd (fwd m a cv)).
Proof.
  induction a as [|r a IH]; intros b cv W HP; cbn [app fwd fst snd]; [now destruct (fwd m b cv)|].
  inversion HP as [|? ? H1 H2]; subst. destruct (conv_event_proper m r cv W H1) as (e & cv' & E & _ & W' & _). rewrite E.
  destruct (IH b cv' W' H2) as [E2 W2]. rewrite E2. destruct (fwd m a cv') as [es cv'']. cbn [fst snd] in *. now split.
Qed.

Lemma conv_threads_fwd m pid : forall ths res cv, wf_pc cv -> Forall (fun p => Forall proper (snd p)) ths ->
  let p := fwd m (flat_map (fun p => map (fun ev => (pid, fst p, ev)) (snd p)) ths) cv in
  conv_threads m pid ths res cv = PassOn (res ++ fst p) (snd p) /\ wf_pc (snd p).
Proof.
  induction ths as [|[tid evs] ths IH]; intros res cv W HP; cbn zeta; cbn [flat_map fwd conv_threads fst snd]; [now rewrite app_nil_r|].
  inversion HP as [|? ? H1 H2]; subst. cbn [snd] in H1.
  destruct (conv_events_fwd m pid tid evs res cv W H1) as [E1 W1]. rewrite E1.
  destruct (IH (res ++ fst (fwd m (map (fun ev => (pid, tid, ev)) evs) cv)) _ W1 H2) as [E2 W2]. rewrite E2.
  assert (HPa : propers (map (fun ev => (pid, tid, ev)) evs)) by (unfold propers; rewrite Forall_map; exact H1).
  destruct (fwd_app m (map (fun ev => (pid, tid, ev)) evs) (flat_map (fun p => map (fun ev => (pid, fst p, ev)) (snd p)) ths) cv W HPa) as [E3 _].
  unfold rev_t in *. rewrite E3. cbn [fst snd]. now rewrite <- app_assoc.
Qed.

Lemma good_propers c : good_chunk c -> propers (events_of c).
Proof.
  unfold good_chunk, propers, events_of. intros H. rewrite Forall_flat_map. rewrite Forall_forall in *. intros p Hp. rewrite Forall_map. exact (H p Hp).
Qed.
Lemma goods_propers cs : Forall good_chunk cs -> propers (received cs).
Proof. intros H. unfold propers, received. rewrite Forall_flat_map. rewrite Forall_forall in *. intros c Hc. apply good_propers. auto. Qed.

Lemma conv_chunks_app m rest : forall cs res cv, wf_pc cv -> Forall good_chunk cs ->
  let p := fwd m (received cs) cv in
  conv_chunks m (map CGood cs ++ rest) res cv = conv_chunks m rest (res ++ fst p) (snd p) /\ wf_pc (snd p).
Proof.
  induction cs as [|c cs IH]; intros res cv W HP; cbn zeta; cbn [map app received flat_map fwd conv_chunks fst snd]; [now rewrite app_nil_r|].
  inversion HP as [|? ? H1 H2]; subst.
  destruct (conv_threads_fwd m (nc_pid c) (nc_threads c) res cv W H1) as [E1 W1]. rewrite E1. fold (events_of c) in *.
  destruct (IH (res ++ fst (fwd m (events_of c) cv)) _ W1 H2) as [E2 W2]. rewrite E2.
  destruct (fwd_app m (events_of c) (received cs) cv W (good_propers c H1)) as [E3 _]. fold (received cs) in *.
  rewrite E3. cbn [fst snd]. now rewrite <- app_assoc.
Qed.

Lemma fwd_shows m : forall l cv, wf_pc cv -> propers l -> Forall2 (shows m) l (fst (fwd m l cv)).
Proof.
  induction l as [|r l IH]; intros cv W HP; cbn [fwd fst]; [constructor|].
  inversion HP as [|? ? H1 H2]; subst. destruct (conv_event_proper m r cv W H1) as (e & cv' & E & S & W' & _). rewrite E.
  specialize (IH cv' W' H2). destruct (fwd m l cv') as [es cv'']. constructor; auto.
Qed.

Lemma shows_isk m pid name r e : shows m r e -> isk pid name e = is_counter m pid name r.
Proof.
  intros [H1 H2 H3 H4 H5 H6]. unfold isk, is_counter. rewrite H2, H5. destruct (Z.eqb_spec (r_pid r) pid) as [<-|Hd]; cbn [andb].
  - inversion H4 as [E|E|E|E|E|E]; rewrite <- ?E in *; cbn; auto.
  - now rewrite andb_false_r.
Qed.

Fixpoint scan (sm : series_map) (l : list (list ascii * Z)) : list series_map :=
  match l with [] => [] | (s, v) :: l' => minsert str_ltb s v sm :: scan (minsert str_ltb s v sm) l' end.
Fixpoint rfill (l : list series_map) : list series_map :=
  match l with [] => [] | a :: l' => merge_series a (hd [] (rfill l')) :: rfill l' end.
Definition kv (m : mapping) (r : rev_t) : list ascii * Z := (snd (r_split m r), r_val r).

Lemma fwd_args m pid name : forall l cv, wf_pc cv -> propers l ->
  map en_args (filter (isk pid name) (fst (fwd m l cv))) = map Some (scan (of_name pid name cv) (map (kv m) (filter (is_counter m pid name) l))).
Proof.
  induction l as [|r l IH]; intros cv W HP; cbn [fwd fst]; [reflexivity|].
  inversion HP as [|? ? H1 H2]; subst. destruct (conv_event_proper m r cv W H1) as (e & cv' & E & S & W' & HN & HA). rewrite E.
  specialize (IH cv' W' H2). destruct (fwd m l cv') as [es cv'']. cbn [fst filter] in *. rewrite (shows_isk _ _ _ _ _ S).
  pose proof (HN pid name) as Hcv. destruct (is_counter m pid name r) eqn:Ec; cbn [map scan kv]; [|rewrite IH, Hcv; reflexivity].
  rewrite IH, Hcv. cbn [scan]. f_equal. rewrite <- Hcv.
  unfold is_counter in Ec. apply andb_true_iff in Ec. destruct Ec as [Ec En]. apply andb_true_iff in Ec. destruct Ec as [Ep Et].
  apply Z.eqb_eq in Ep. apply N.eqb_eq in Et. rewrite (HA Et). destruct (str_eqb_spec (fst (split_series (scope_name m pid (te_id (r_ev r))))) name) as [Hn|]; [|discriminate].
  rewrite (sh_name _ _ _ S), Et, N.eqb_refl. subst pid. now rewrite Hn.
Qed.

(** * The reverse pass *)
Definition same_but_args (a b : entry) : Prop :=
  en_ts a = en_ts b /\ en_tid a = en_tid b /\ en_pid a = en_pid b /\ en_name a = en_name b /\ en_ph a = en_ph b /\ en_s a = en_s b /\
  (en_args a = None <-> en_args b = None).
Definition ordered_args (e : entry) : Prop := match en_args e with Some a => ordered str_ltb a | None => True end.

Lemma fill_same : forall l, Forall2 same_but_args l (fst (fill l)).
Proof.
  induction l as [|e l IH]; cbn [fill]; [constructor|]. destruct (fill l) as [r all]. cbn [fst] in *.
  destruct (Ascii.eqb (en_ph e) "C"); [destruct (en_args e) as [a|] eqn:E|]; cbn [fst]; constructor; auto; repeat split; auto; cbn; rewrite ?E; try discriminate; auto.
Qed.

Lemma fill_args pid name : forall l, Forall ordered_args l ->
  wf_pc (snd (fill l)) /\
  (forall ms, map en_args (filter (isk pid name) l) = map Some ms ->
     map en_args (filter (isk pid name) (fst (fill l))) = map Some (rfill ms) /\ of_name pid name (snd (fill l)) = hd [] (rfill ms)).
Proof.
  induction 1 as [|e l He Hl IH]; cbn [fill].
  - split; [apply wf_nil|]. intros [|? ?] H; [|discriminate]. now split.
  - destruct IH as [W IH]. destruct (fill l) as [r all]. cbn [fst snd] in *. cbn [filter].
    destruct (Ascii.eqb_spec (en_ph e) "C") as [Ec|Ec].
    + destruct (en_args e) as [a|] eqn:Ea.
      * assert (Ha : ordered str_ltb a) by (unfold ordered_args in He; rewrite Ea in He; exact He).
        destruct (merge_find (of_name (en_pid e) (en_name e) all) a [] Ha (wf_in _ W _ _)) as [_ Om].
        cbn [fst snd]. split; [now apply wf_set|]. intros ms Hms. cbn [filter]. change (isk pid name (with_args e _)) with (isk pid name e).
        rewrite of_name_set by auto.
        assert (Ei : isk pid name e = (pid =? en_pid e)%Z && str_eqb name (en_name e)).
        { unfold isk. rewrite Ec. cbn [Ascii.eqb Bool.eqb andb]. rewrite Z.eqb_sym. f_equal.
          destruct (str_eqb_spec (en_name e) name), (str_eqb_spec name (en_name e)); congruence. }
        rewrite Ei in *. destruct ((pid =? en_pid e)%Z && str_eqb name (en_name e)) eqn:Ek; [|now apply IH].
        apply andb_true_iff in Ek. destruct Ek as [Ep En]. apply Z.eqb_eq in Ep. destruct (str_eqb_spec name (en_name e)) as [En'|]; [|discriminate].
        cbn [map] in *. rewrite Ea in Hms. destruct ms as [|a0 ms]; [discriminate|].
        cbn [map] in Hms. injection Hms as <- Hms. destruct (IH ms Hms) as [E1 E2]. rewrite E1, <- Ep, <- En', E2. now split.
      * cbn [fst snd]. split; auto. intros ms Hms. cbn [filter]. destruct (isk pid name e) eqn:Ei; [|auto].
        cbn [map] in Hms. rewrite Ea in Hms. destruct ms; discriminate.
    + cbn [fst snd]. split; auto. intros ms Hms. cbn [filter].
      assert (Ei : isk pid name e = false) by (unfold isk; destruct (Ascii.eqb_spec (en_ph e) "C"); [congruence|reflexivity]).
      rewrite Ei in *. auto.
Qed.

(** * What the two passes give *)
Definition gives (s : list ascii) (p : list ascii * Z) : option Z := if str_eqb (fst p) s then Some (snd p) else None.

Lemma scan_ordered : forall l sm, ordered str_ltb sm -> Forall (ordered str_ltb) (scan sm l).
Proof. induction l as [|[s v] l IH]; intros sm H; cbn; constructor; [|apply IH]; now apply (ordered_insert _ str_order). Qed.
Lemma rfill_ordered : forall l, Forall (ordered str_ltb) l -> Forall (ordered str_ltb) (rfill l) /\ ordered str_ltb (hd [] (rfill l)).
Proof.
  induction 1 as [|a l Ha Hl IH]; cbn; [split; [constructor|apply ordered_nil]|]. destruct IH as [I1 I2].
  destruct (merge_find (hd [] (rfill l)) a [] Ha I2) as [_ O]. split; [constructor; auto|exact O].
Qed.
Lemma insert_find s k (v : Z) sm : ordered str_ltb sm -> mfind str_ltb s (minsert str_ltb k v sm) = if str_eqb k s then Some v else mfind str_ltb s sm.
Proof.
  intros H. destruct (str_eqb_spec k s) as [->|Hd]; [apply (find_insert_same _ str_order)|]. apply (find_insert_other _ str_order); auto.
Qed.

Lemma passes_value s : forall l1 p l2 sm a, ordered str_ltb sm -> nth_error (rfill (scan sm (l1 ++ p :: l2))) (length l1) = Some a ->
  mfind str_ltb s a = match latest (gives s) (l1 ++ [p]) with
                      | Some v => Some v
                      | None => match mfind str_ltb s sm with Some v => Some v | None => earliest (gives s) l2 end
                      end.
Proof.
  induction l1 as [|q l1 IH]; intros p l2 sm a HO Hn; cbn [app length] in *.
  - destruct p as [k v]. cbn [scan rfill nth_error] in Hn. injection Hn as <-.
    assert (HO' : ordered str_ltb (minsert str_ltb k v sm)) by now apply (ordered_insert _ str_order).
    assert (HH : ordered str_ltb (hd [] (rfill (scan (minsert str_ltb k v sm) l2)))) by (apply rfill_ordered, scan_ordered; exact HO').
    destruct (merge_find _ _ s HO' HH) as [E _]. rewrite E, insert_find by auto. cbn [latest gives fst snd].
    destruct (str_eqb_spec k s) as [Hk|Hk]; [unfold gives; cbn [fst snd]; destruct (str_eqb_spec k s); congruence|].
    unfold gives at 1. cbn [fst snd]. destruct (str_eqb_spec k s); [congruence|].
    destruct (mfind str_ltb s sm) as [x|] eqn:Ex; [reflexivity|].
    (* the first later one *)
    clear E. assert (Ex' : mfind str_ltb s (minsert str_ltb k v sm) = None) by (rewrite insert_find by auto; destruct (str_eqb_spec k s); congruence).
    revert HO' HH Ex'. generalize (minsert str_ltb k v sm). clear. induction l2 as [|[k v] l2 IH]; intros sm HO HH Ex; [reflexivity|].
    cbn [scan rfill hd earliest] in *. unfold gives at 1. cbn [fst snd].
    assert (HO' : ordered str_ltb (minsert str_ltb k v sm)) by now apply (ordered_insert _ str_order).
    assert (HH' : ordered str_ltb (hd [] (rfill (scan (minsert str_ltb k v sm) l2)))) by (apply rfill_ordered, scan_ordered; exact HO').
    destruct (merge_find _ _ s HO' HH') as [E _]. rewrite E, insert_find by auto. destruct (str_eqb_spec k s) as [Hk|Hk]; [reflexivity|].
    rewrite Ex. apply IH; auto. rewrite insert_find by auto. destruct (str_eqb_spec k s); congruence.
  - destruct q as [k v]. cbn [scan rfill nth_error] in Hn.
    assert (HO' : ordered str_ltb (minsert str_ltb k v sm)) by now apply (ordered_insert _ str_order).
    rewrite (IH p l2 _ a HO' Hn). cbn [latest]. destruct (latest (gives s) (l1 ++ [p])); [reflexivity|].
    rewrite insert_find by auto. unfold gives. cbn [fst snd]. destruct (str_eqb k s); reflexivity.
Qed.

Lemma latest_filter m pid name s : forall l, propers l ->
  latest (sets m pid name s) l = latest (gives s) (map (kv m) (filter (is_counter m pid name) l)) /\
  earliest (sets m pid name s) l = earliest (gives s) (map (kv m) (filter (is_counter m pid name) l)).
Proof.
  induction 1 as [|r l Hr Hl [IH1 IH2]]; [split; reflexivity|]. cbn [filter latest earliest].
  assert (E : sets m pid name s r = if is_counter m pid name r then gives s (kv m r) else None).
  { unfold sets. destruct (is_counter m pid name r) eqn:Ec; cbn [andb]; [|reflexivity]. unfold gives, kv, r_split. cbn [fst snd].
    unfold is_counter in Ec. apply andb_true_iff in Ec. destruct Ec as [Ec En]. apply andb_true_iff in Ec. destruct Ec as [Ep Et].
    apply Z.eqb_eq in Ep. apply N.eqb_eq in Et. rewrite Ep. destruct (str_eqb _ s); [|reflexivity].
    destruct Hr as [_ Hv]. specialize (Hv Et). unfold r_val. destruct (te_value (r_ev r)); congruence. }
  rewrite E, IH1, IH2. destruct (is_counter m pid name r); cbn [map latest earliest].
  - split; reflexivity.
  - split; [destruct (latest (gives s) (map (kv m) (filter (is_counter m pid name) l)))|]; reflexivity.
Qed.

(** * C26, C27, C28 *)
Lemma shows_after m r e e' : shows m r e -> same_but_args e e' -> shows m r e'.
Proof.
  intros [H1 H2 H3 H4 H5 H6] (A1 & A2 & A3 & A4 & A5 & A6 & A7). constructor; try congruence; rewrite <- ?A4, <- ?A5, <- ?A6; auto. tauto.
Qed.

Definition ok_entry (e : entry) : Prop := en_ts e <> S754_nan.
Definition pair_ltb (a b : rev_t * entry) : bool := ts_ltb (snd a) (snd b).

Lemma Forall2_length {A B} {R : A -> B -> Prop} {l l'} : Forall2 R l l' -> length l = length l'.
Proof. induction 1; cbn; auto. Qed.
Lemma combine_fst {A B} : forall (l : list A) (l' : list B), length l = length l' -> map fst (combine l l') = l.
Proof. induction l as [|a l IH]; intros [|b l'] H; cbn in *; try discriminate; auto. f_equal. auto. Qed.
Lemma combine_snd {A B} : forall (l : list A) (l' : list B), length l = length l' -> map snd (combine l l') = l'.
Proof. induction l as [|a l IH]; intros [|b l'] H; cbn in *; try discriminate; auto. f_equal. auto. Qed.
Lemma Forall2_combine {A B} (R : A -> B -> Prop) : forall l l', Forall2 R l l' -> Forall (fun p => R (fst p) (snd p)) (combine l l').
Proof. induction 1; cbn; constructor; auto. Qed.
Lemma Forall_Forall2 {A B} (R : A -> B -> Prop) : forall l, Forall (fun p : A * B => R (fst p) (snd p)) l -> Forall2 R (map fst l) (map snd l).
Proof. induction 1; cbn; constructor; auto. Qed.
Lemma Forall2_trans {A B C} (R : A -> B -> Prop) (S : B -> C -> Prop) (T : A -> C -> Prop) : (forall a b c, R a b -> S b c -> T a c) ->
  forall l1 l2 l3, Forall2 R l1 l2 -> Forall2 S l2 l3 -> Forall2 T l1 l3.
Proof. intros H l1 l2 l3 H1. revert l3. induction H1; intros l3 H2; inversion H2; subst; constructor; eauto. Qed.

(** Whatever the order of arrival, an entry has the value its own event set. *)
Definition keeps (e e' : entry) : Prop := forall a, en_args e = Some a -> exists a', en_args e' = Some a' /\ forall s v, mfind str_ltb s a = Some v -> mfind str_ltb s a' = Some v.
Lemma fill_keeps : forall l, Forall ordered_args l -> Forall2 keeps l (fst (fill l)) /\ wf_pc (snd (fill l)).
Proof.
  induction 1 as [|e l He Hl [IH W]]; cbn [fill]; [split; [constructor|apply wf_nil]|].
  destruct (fill l) as [r all]. cbn [fst snd] in *.
  assert (Hk : keeps e e) by (intros a Ha; eauto).
  destruct (Ascii.eqb (en_ph e) "C"); [destruct (en_args e) as [a|] eqn:E|]; cbn [fst snd]; try (split; [constructor|]; auto).
  - assert (Ha : ordered str_ltb a) by (unfold ordered_args in He; rewrite E in He; exact He). intros a0 Ea0. exists (merge_series a (of_name (en_pid e) (en_name e) all)).
    split; [reflexivity|]. assert (a0 = a) as -> by congruence. intros s v Hv. destruct (merge_find (of_name (en_pid e) (en_name e) all) a s Ha (wf_in _ W _ _)) as [-> _]. now rewrite Hv.
  - apply wf_set; auto. assert (Ha : ordered str_ltb a) by (unfold ordered_args in He; rewrite E in He; exact He).
    destruct (merge_find (of_name (en_pid e) (en_name e) all) a [] Ha (wf_in _ W _ _)) as [_ O]. exact O.
Qed.

Lemma fwd_own m : forall l cv, wf_pc cv -> propers l -> Forall2 (own m) l (fst (fwd m l cv)) /\ Forall ordered_args (fst (fwd m l cv)).
Proof.
  induction l as [|r l IH]; intros cv W HP; cbn [fwd fst]; [split; constructor|].
  inversion HP as [|? ? H1 H2]; subst. destruct (conv_event_proper m r cv W H1) as (e & cv' & E & S & W' & HN & HA). rewrite E.
  specialize (IH cv' W' H2). destruct (fwd m l cv') as [es cv'']. cbn [fst] in *. destruct IH as [I1 I2]. split; constructor; auto.
  - intros Et v Hv. specialize (HA Et). exists (of_name (r_pid r) (en_name e) cv'). split; [exact HA|]. rewrite HN.
    assert (Hc : is_counter m (r_pid r) (en_name e) r = true).
    { unfold is_counter. rewrite Z.eqb_refl, Et, N.eqb_refl, (sh_name _ _ _ S), Et, N.eqb_refl. cbn [andb]. apply str_eqb_refl. }
    rewrite Hc, (find_insert_same _ str_order). unfold r_val. now rewrite Hv.
  - unfold ordered_args. destruct (en_args e) as [a|] eqn:Ea; [|exact Logic.I].
    assert (Et : te_type (r_ev r) = COUNTER) by (apply (sh_args _ _ _ S); congruence). specialize (HA Et). injection HA as ->. apply wf_in; auto.
Qed.

Section Finish.
Variable m : mapping.
Variable l : list rev_t.
Hypothesis HP : propers l.
Let P := combine l (fst (fwd m l [])).
Let order := map fst (stable_sort pair_ltb P).
Let entries := fst (fill (stable_sort ts_ltb (fst (fwd m l [])))).

Let HL : length l = length (fst (fwd m l [])).
Proof. apply (Forall2_length (fwd_shows m l [] wf_nil HP)). Qed.
Let HPS : Forall (fun p => shows m (fst p) (snd p)) P.
Proof. apply Forall2_combine, fwd_shows; auto using wf_nil. Qed.
Let Hpair : forall x y, In x P -> In y P -> pair_ltb x y = shown_before (fst x) (fst y).
Proof.
  intros x y Hx Hy. rewrite Forall_forall in HPS. unfold pair_ltb, ts_ltb, shown_before.
  now rewrite (sh_time _ _ _ (HPS x Hx)), (sh_time _ _ _ (HPS y Hy)).
Qed.
Let Horder : order = stable_sort shown_before l.
Proof.
  unfold order. rewrite (sort_map fst pair_ltb shown_before P Hpair). unfold P. now rewrite combine_fst.
Qed.
Let Hsorted_entries : stable_sort ts_ltb (fst (fwd m l [])) = map snd (stable_sort pair_ltb P).
Proof. rewrite (sort_map snd pair_ltb ts_ltb P) by reflexivity. unfold P. now rewrite combine_snd. Qed.

Lemma order_time : time_order order l.
Proof.
  rewrite Horder. split; [apply sort_perm|].
  assert (I : forall a, shown_before a a = false) by (intros; apply SFltb_irr).
  assert (T : forall a b c, shown_before a b = true -> shown_before b c = true -> shown_before a c = true) by (intros a b c; apply SFltb_trans).
  assert (Ng : forall a b c, True -> shown_before a c = true -> shown_before a b = true \/ shown_before b c = true)
    by (intros a b c _; apply SFltb_neg, ts_not_nan).
  assert (FT : forall k : list rev_t, Forall (fun _ => True) k) by (intros; apply Forall_forall; auto).
  split.
  - apply (sort_sorted shown_before (fun _ => True) I T Ng). apply FT.
  - intros a. apply (sort_stable shown_before (fun _ => True) Ng a l Logic.I). apply FT.
Qed.
Lemma order_shows : Forall2 (shows m) order entries.
Proof.
  unfold entries. rewrite Hsorted_entries.
  apply (Forall2_trans (shows m) same_but_args (shows m) (shows_after m) _ (map snd (stable_sort pair_ltb P))).
  - unfold order. apply Forall_Forall2. apply (Permutation_Forall (Permutation_sym (sort_perm pair_ltb P))). exact HPS.
  - apply fill_same.
Qed.

Lemma Forall2_filter (R : rev_t -> entry -> Prop) f g : (forall a b, R a b -> g b = f a) ->
  forall l1 l2, Forall2 R l1 l2 -> length (filter f l1) = length (filter g l2).
Proof. intros H. induction 1 as [|a b l1 l2 Hab H2 IH]; cbn; auto. rewrite (H a b Hab). destruct (f a); cbn; auto. Qed.

Lemma order_counter pid name : StronglySorted (fun a b => shown_before b a = false) (filter (is_counter m pid name) l) ->
  forall o1 r o2 e1 e e2, order = o1 ++ r :: o2 -> entries = e1 ++ e :: e2 -> length e1 = length o1 ->
  is_counter m pid name r = true ->
  exists a, en_args e = Some a /\ ordered str_ltb a /\
    forall s, mfind str_ltb s a = value_at (sets m pid name s) (o1 ++ [r]) o2.
Proof.
  intros HS o1 r o2 e1 e e2 Ho He Hlen Hr.
  assert (Hf : filter (is_counter m pid name) order = filter (is_counter m pid name) l).
  { rewrite Horder. apply sort_filter. exact HS. }
  assert (HFs : filter (isk pid name) (stable_sort ts_ltb (fst (fwd m l []))) = filter (isk pid name) (fst (fwd m l []))).
  { apply sort_filter. clear -HS HP. pose proof (fwd_shows m l [] wf_nil HP) as H2. induction H2 as [|r e l es H1 H2 IH]; cbn [filter]; [constructor|].
    inversion HP; subst. rewrite (shows_isk _ _ _ _ _ H1). cbn [filter] in HS. destruct (is_counter m pid name r) eqn:Er; [|auto].
    inversion HS as [|? ? HS' HF]; subst. constructor; [apply IH; auto|]. apply Forall_forall. intros x Hx. apply filter_In in Hx. destruct Hx as [Hx1 Hx2].
    rewrite Forall_forall in HF. clear -H1 H2 Hx1 Hx2 HF.
    induction H2 as [|r' e' l es H3 H4 IH]; [destruct Hx1|]. destruct Hx1 as [->|Hx1].
    - rewrite (shows_isk _ _ _ _ _ H3) in Hx2. unfold ts_ltb. rewrite (sh_time _ _ _ H1), (sh_time _ _ _ H3). apply HF. cbn. rewrite Hx2. now left.
    - apply IH; auto. intros y Hy. apply HF. cbn. destruct (is_counter m pid name r'); [now right|auto]. }
  pose proof (fwd_args m pid name l [] wf_nil HP) as HA. change (of_name pid name []) with (@nil (list ascii * Z)) in HA. rewrite <- HFs in HA.
  assert (HO : Forall ordered_args (stable_sort ts_ltb (fst (fwd m l [])))).
  { apply (Permutation_Forall (Permutation_sym (sort_perm ts_ltb _))). clear -HP. generalize wf_nil. generalize (@nil (Z * counter_map)). induction l as [|r k IH]; intros cv W; cbn [fwd fst]; [constructor|].
    inversion HP as [|? ? H1 H2]; subst. destruct (conv_event_proper m r cv W H1) as (e & cv' & E & S & W' & HN & HA). rewrite E.
    specialize (IH H2 cv' W'). destruct (fwd m k cv') as [es cv'']. cbn [fst] in *. constructor; [|exact IH].
    unfold ordered_args. destruct (en_args e) as [a|] eqn:Ea; [|exact Logic.I].
    assert (Et : te_type (r_ev r) = COUNTER) by (apply (sh_args _ _ _ S); congruence). specialize (HA Et). injection HA as ->. apply wf_in; auto. }
  destruct (fill_args pid name _ HO) as [_ HFill]. destruct (HFill _ HA) as [HE _]. fold entries in HE.
  assert (Hshow : shows m r e).
  { pose proof order_shows as H2. rewrite Ho, He in H2. apply Forall2_app_inv_l in H2. destruct H2 as (k1 & k2 & H3 & H4 & Heq).
    pose proof (Forall2_length H3) as Hk. inversion H4 as [|? b ? k2' H5 H6]; subst.
    assert (Hl : length e1 = length k1) by congruence.
    clear -Heq Hl H5. revert k1 Heq Hl. induction e1 as [|x e1 IH]; intros [|y k1] Heq Hl; cbn in *; try discriminate.
    - injection Heq as -> _. exact H5.
    - injection Heq as _ Heq. injection Hl as Hl. eauto. }
  assert (Hcut : length (filter (isk pid name) e1) = length (filter (is_counter m pid name) o1)).
  { symmetry. apply (Forall2_filter (shows m)); [intros; now apply shows_isk|].
    pose proof order_shows as H2. rewrite Ho, He in H2. apply Forall2_app_inv_l in H2. destruct H2 as (k1 & k2 & H3 & H4 & Heq).
    pose proof (Forall2_length H3) as Hk. assert (Hl : length e1 = length k1) by congruence. replace e1 with k1; auto.
    clear -Heq Hl. revert k1 Heq Hl. induction e1 as [|x e1 IH]; intros [|y k1] Heq Hl; cbn in *; try discriminate; auto.
    injection Heq as -> Heq. injection Hl as Hl. f_equal. eauto. }
  rewrite <- Hf, Ho, filter_app in HE. cbn [filter] in HE. rewrite Hr, map_app in HE. cbn [map] in HE.
  rewrite He, filter_app in HE. cbn [filter] in HE. rewrite (shows_isk _ _ _ _ _ Hshow), Hr in HE. rewrite map_app in HE. cbn [map] in HE.
  set (q1 := map (kv m) (filter (is_counter m pid name) o1)) in *. set (q2 := map (kv m) (filter (is_counter m pid name) o2)) in *.
  assert (Hq : length (map en_args (filter (isk pid name) e1)) = length q1) by (unfold q1; rewrite !map_length; exact Hcut).
  assert (Hnth : nth_error (map Some (rfill (scan [] (q1 ++ kv m r :: q2)))) (length q1) = Some (en_args e)).
  { rewrite <- HE, nth_error_app2 by lia. now rewrite Hq, Nat.sub_diag. }
  rewrite nth_error_map in Hnth. destruct (nth_error (rfill (scan [] (q1 ++ kv m r :: q2))) (length q1)) as [a|] eqn:Ea; [|discriminate].
  cbn in Hnth. injection Hnth as Hnth. exists a. split; [symmetry; exact Hnth|]. split.
  - apply nth_error_In in Ea. assert (HR : Forall (ordered str_ltb) (rfill (scan [] (q1 ++ kv m r :: q2)))) by (apply rfill_ordered, scan_ordered, ordered_nil).
    rewrite Forall_forall in HR. auto.
  - intros s. rewrite (passes_value s q1 (kv m r) q2 [] a (ordered_nil _) Ea). unfold value_at.
    assert (HPo : propers order) by (apply (Permutation_Forall (Permutation_sym (proj1 order_time))); exact HP).
    rewrite Ho in HPo. apply Forall_app in HPo. destruct HPo as [Hp1 Hp2]. inversion Hp2 as [|? ? Hp3 Hp4]; subst.
    assert (Hp5 : propers (o1 ++ [r])) by (apply Forall_app; split; auto).
    rewrite (proj1 (latest_filter m pid name s _ Hp5)), (proj2 (latest_filter m pid name s _ Hp4)).
    rewrite filter_app, map_app. cbn [filter]. rewrite Hr. cbn [map mfind]. reflexivity.
Qed.

Lemma order_own : Forall2 (own m) order entries.
Proof.
  destruct (fwd_own m l [] wf_nil HP) as [H1 H2]. unfold entries. rewrite Hsorted_entries.
  apply (Forall2_trans (own m) keeps (own m)) with (l2 := map snd (stable_sort pair_ltb P)).
  - intros r e e' Ho Hk Et v Hv. destruct (Ho Et v Hv) as (a & Ha & Hs). destruct (Hk a Ha) as (a' & Ha' & Hs'). eauto.
  - unfold order. apply Forall_Forall2. apply (Permutation_Forall (Permutation_sym (sort_perm pair_ltb P))). apply Forall2_combine. exact H1.
  - apply fill_keeps. rewrite <- Hsorted_entries. apply (Permutation_Forall (Permutation_sym (sort_perm ts_ltb _))). exact H2.
Qed.
End Finish.

Lemma finish_good m cs : Forall good_chunk cs -> finish m (map CGood cs) = FEntries (fst (fill (stable_sort ts_ltb (fst (fwd m (received cs) []))))).
Proof.
  intros H. unfold finish. rewrite <- (app_nil_r (map CGood cs)). destruct (conv_chunks_app m [] cs [] [] wf_nil H) as [E _]. rewrite E. reflexivity.
Qed.

Theorem interval_complete m cs : Forall good_chunk cs ->
  exists res order, finish m (map CGood cs) = FEntries res /\ time_order order (received cs) /\ Forall2 (shows m) order res.
Proof.
  intros H. rewrite finish_good by auto. pose proof (goods_propers cs H) as HP. eexists _, _. split; [reflexivity|].
  split; [apply (order_time m (received cs) HP)|apply order_shows; auto].
Qed.

Theorem interval_counters m cs : Forall good_chunk cs ->
  exists res order, finish m (map CGood cs) = FEntries res /\ time_order order (received cs) /\ Forall2 (shows m) order res /\
  forall pid name, StronglySorted (fun a b => shown_before b a = false) (filter (is_counter m pid name) (received cs)) ->
  forall o1 r o2 e1 e e2, order = o1 ++ r :: o2 -> res = e1 ++ e :: e2 -> length e1 = length o1 ->
  is_counter m pid name r = true -> consistent m o1 r o2 e.
Proof.
  intros H. rewrite finish_good by auto. pose proof (goods_propers cs H) as HP. eexists _, _. split; [reflexivity|].
  split; [apply (order_time m (received cs) HP)|]. split; [apply order_shows; auto|].
  intros pid name HS o1 r o2 e1 e e2 Ho He Hl Hr.
  destruct (order_counter m (received cs) HP pid name HS o1 r o2 e1 e e2 Ho He Hl Hr) as (a & Ha & Hor & Hv).
  exists a. split; [exact Ha|]. split; [apply (ordered_NoDup _ str_order _ Hor)|]. intros s.
  assert (Hs : shows m r e).
  { pose proof (order_shows m (received cs) HP) as H2. rewrite Ho, He in H2. apply Forall2_app_inv_l in H2. destruct H2 as (k1 & k2 & H3 & H4 & Heq).
    pose proof (Forall2_length H3) as Hk. inversion H4 as [|? b ? k2' H5 H6]; subst. assert (Hl' : length e1 = length k1) by congruence.
    clear -Heq Hl' H5. revert k1 Heq Hl'. induction e1 as [|x e1 IH]; intros [|y k1] Heq Hl; cbn in *; try discriminate.
    - injection Heq as -> _. exact H5.
    - injection Heq as _ Heq. injection Hl as Hl. eauto. }
  unfold is_counter in Hr. apply andb_true_iff in Hr. destruct Hr as [Hr En]. apply andb_true_iff in Hr. destruct Hr as [Ep Et].
  apply Z.eqb_eq in Ep. destruct (str_eqb_spec (fst (split_series (scope_name m pid (te_id (r_ev r))))) name) as [Hn|]; [|discriminate].
  rewrite (sh_name _ _ _ Hs), Et, Ep, Hn. apply Hv.
Qed.


Theorem interval_own m cs : Forall good_chunk cs ->
  exists res order, finish m (map CGood cs) = FEntries res /\ time_order order (received cs) /\ Forall2 (shows m) order res /\ Forall2 (own m) order res.
Proof.
  intros H. rewrite finish_good by auto. pose proof (goods_propers cs H) as HP. eexists _, _. split; [reflexivity|].
  split; [apply (order_time m (received cs) HP)|]. split; [apply order_shows; auto|apply order_own; auto].
Qed.

(** Everything up to a chunk that cannot be decoded is there, nothing after it. *)
Theorem bad_cuts m cs rest : Forall good_chunk cs -> finish m (map CGood cs ++ CBad :: rest) = finish m (map CGood cs).
Proof.
  intros H. rewrite finish_good by auto. unfold finish. destruct (conv_chunks_app m (CBad :: rest) cs [] [] wf_nil H) as [E _]. now rewrite E.
Qed.
(** The same for an event of unknown type: the events before it are there. *)
Theorem unknown_cuts m cs c tid before ev after ths rest : Forall good_chunk cs ->
  nc_threads c = [(tid, before ++ ev :: after)] ++ ths -> Forall proper before -> (te_type ev = 0 \/ 6 < te_type ev)%N ->
  finish m (map CGood cs ++ CGood c :: rest) = finish m (map CGood (cs ++ [{| nc_pid := nc_pid c; nc_threads := [(tid, before)] |}])).
Proof.
  intros H Hc Hb Ht. rewrite finish_good.
  2: { apply Forall_app. split; auto. constructor; [|constructor]. constructor; [exact Hb|constructor]. }
  unfold finish. destruct (conv_chunks_app m (CGood c :: rest) cs [] [] wf_nil H) as [E W]. rewrite E. cbn [conv_chunks]. rewrite Hc. cbn [app conv_threads].
  set (p := fwd m (received cs) []) in *.
  assert (Hstop : forall evs res cv, wf_pc cv -> Forall proper evs -> conv_events m (nc_pid c) tid (evs ++ ev :: after) res cv = PassStop (res ++ fst (fwd m (map (fun ev => (nc_pid c, tid, ev)) evs) cv))).
  { clear -Ht. induction evs as [|x evs IH]; intros res cv W HP; cbn [app conv_events map fwd].
    - replace (conv_event m (nc_pid c) tid ev cv) with EThrow; [now rewrite app_nil_r|].
      unfold conv_event. unfold SCOPE_ENTRY, SCOPE_EXIT, MARK_GLOBAL, MARK_PROCESS, MARK_THREAD, COUNTER.
      repeat match goal with |- context[(te_type ev =? ?n)%N] => destruct (N.eqb_spec (te_type ev) n); [exfalso; lia|] end. reflexivity.
    - inversion HP as [|? ? H1 H2]; subst. destruct (conv_event_proper m (nc_pid c, tid, x) cv W H1) as (e & cv' & E & _ & W' & _).
      unfold r_pid, r_tid, r_ev in *. cbn [fst snd] in *. rewrite E. rewrite (IH _ _ W' H2).
      destruct (fwd m (map (fun ev => (nc_pid c, tid, ev)) evs) cv') as [es cv'']. cbn [fst]. now rewrite <- app_assoc. }
  rewrite (Hstop _ _ _ W Hb). do 4 f_equal.
  unfold received. rewrite flat_map_app. fold (received cs). cbn [flat_map events_of nc_threads nc_pid]. unfold events_of. cbn [flat_map nc_threads nc_pid fst snd]. rewrite !app_nil_r.
  destruct (fwd_app m (received cs) (map (fun ev0 => (nc_pid c, tid, ev0)) before) [] wf_nil (goods_propers cs H)) as [E3 _].
  unfold rev_t in *. rewrite E3. reflexivity.
Qed.
