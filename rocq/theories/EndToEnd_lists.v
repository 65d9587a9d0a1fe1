(** Lists, for [EndToEnd_proofs.v]. *)
From Coq Require Import List Arith Lia Bool Sorting.Sorted Sorting.Permutation.
Import ListNotations.
From Verif Require Import Collector_spec Collector_proofs.

Lemma Forall2_len {A B} (R : A -> B -> Prop) l m : Forall2 R l m -> length l = length m.
Proof. induction 1; cbn; auto. Qed.
Definition tagged {A} (p : nat) (l : list (nat * A)) : list A := map snd (filter (fun x => fst x =? p) l).

Lemma tagged_app {A} p (a b : list (nat * A)) : tagged p (a ++ b) = tagged p a ++ tagged p b.
Proof. unfold tagged. now rewrite filter_app, map_app. Qed.
Lemma tagged_cons {A} p q (x : A) l : tagged p ((q, x) :: l) = if q =? p then x :: tagged p l else tagged p l.
Proof. unfold tagged. cbn. now destruct (q =? p). Qed.
Lemma tagged_in {A} p (l : list (nat * A)) x : In x (tagged p l) <-> In (p, x) l.
Proof.
  induction l as [|[q y] l IH]; [reflexivity|]. rewrite tagged_cons. cbn [In]. destruct (Nat.eqb_spec q p) as [->|N]; cbn [In]; rewrite IH; intuition congruence.
Qed.
Lemma tagged_NoDup {A} p (l : list (nat * A)) : NoDup l -> NoDup (tagged p l).
Proof.
  induction 1 as [|[q y] l N D IH]; [constructor|]. rewrite tagged_cons. destruct (Nat.eqb_spec q p) as [->|N']; [|exact IH]. constructor; [|exact IH].
  rewrite tagged_in. exact N.
Qed.
Lemma tagged_perm {A} p (a b : list (nat * A)) : Permutation a b -> Permutation (tagged p a) (tagged p b).
Proof.
  intros H. unfold tagged. apply Permutation_map. induction H; cbn; auto.
  - now destruct (fst x =? p); auto.
  - destruct (fst x =? p), (fst y =? p); auto. constructor.
  - etransitivity; eauto.
Qed.

(** Picking from a list by distinct indices. *)
Lemma pick {A} : forall (l : list A) ks xs, NoDup ks -> Forall2 (fun k x => nth_error l k = Some x) ks xs -> exists rest, Permutation (xs ++ rest) l.
Proof.
  intros l ks xs N F. revert l N F. induction xs as [|x xs IH] in ks |- *; intros l N F.
  { exists l. reflexivity. }
  destruct ks as [|k ks]; inversion F as [|? ? ? ? Hk F']; subst. inversion N as [|? ? Nk N']; subst.
  apply nth_error_split in Hk. destruct Hk as (l1 & l2 & -> & Hl).
  set (f := fun j => if j <? k then j else j - 1).
  destruct (IH (map f ks) (l1 ++ l2)) as (rest & P).
  - assert (G : forall a b, In a ks -> In b ks -> f a = f b -> a = b).
    { intros a b Ha Hb. assert (a <> k) by (intros ->; auto). assert (b <> k) by (intros ->; auto). unfold f. destruct (Nat.ltb_spec a k), (Nat.ltb_spec b k); lia. }
    clear - N' G. induction N' as [|a ks Na N' IH]; cbn; constructor.
    + intros H. apply in_map_iff in H. destruct H as (b & E & Hb). assert (a = b) by (apply G; cbn; auto). subst. auto.
    + apply IH. intros a' b' Ha Hb. apply G; cbn; auto.
  - assert (G : forall a, In a ks -> a <> k) by (intros a Ha ->; auto). clear - F' G Hl. induction F' as [|a y ks ys H F IH]; cbn; constructor.
    + assert (a <> k) by (apply G; cbn; auto). unfold f. destruct (Nat.ltb_spec a k).
      * rewrite nth_error_app1 in * by lia. auto.
      * rewrite nth_error_app2 in * by lia. replace (a - length l1) with (S (a - 1 - length l1)) in H by lia. cbn in H. auto.
    + apply IH. intros. apply G. cbn. auto.
  - exists rest. cbn. rewrite P. apply Permutation_middle.
Qed.
Lemma filter_perm {A} (f : A -> bool) a b : Permutation a b -> Permutation (filter f a) (filter f b).
Proof.
  induction 1; cbn; auto.
  - now destruct (f x); auto.
  - destruct (f x), (f y); auto. constructor.
  - etransitivity; eauto.
Qed.
Lemma index_count {A} (f : A -> bool) : forall t pre,
  length (filter (fun k => match nth_error (pre ++ t) k with Some x => f x | None => false end) (seq (length pre) (length t))) = length (filter f t).
Proof.
  induction t as [|x t IH]; intros pre; [reflexivity|]. cbn [length seq filter]. rewrite nth_error_app2, Nat.sub_diag by lia. cbn [nth_error].
  specialize (IH (pre ++ [x])). rewrite app_length in IH. cbn [length] in IH. rewrite Nat.add_1_r, <- app_assoc in IH. cbn [app] in IH.
  destruct (f x); cbn [length]; rewrite IH; reflexivity.
Qed.
(** If all elements of interest behind a position are picked. *)
Lemma pick_all {A} (l t : list A) (f : A -> bool) ks xs : NoDup ks -> Forall2 (fun k x => nth_error (l ++ t) k = Some x) ks xs -> Forall (fun x => f x = true) xs ->
  (forall k x, nth_error t k = Some x -> f x = true -> In (length l + k) ks) -> exists old rest, Permutation xs (old ++ filter f t) /\ Permutation (old ++ rest) (filter f l).
Proof.
  intros N F Ff All.
  assert (S : exists ka xa kb xb, Forall2 (fun k x => nth_error l k = Some x) ka xa
     /\ Forall2 (fun k x => nth_error t k = Some x) kb xb /\ NoDup ka /\ NoDup kb /\ Permutation xs (xa ++ xb) /\ (forall k, In (length l + k) ks -> In k kb)
     /\ (forall k, In k ka -> In k ks) /\ (forall k, In k kb -> In (length l + k) ks)).
  { clear All Ff. revert N. induction F as [|k x ks xs H F IH]; intros N.
    { exists [], [], [], []. cbn. repeat split; auto; try constructor; try (intros; contradiction). }
    inversion N as [|? ? Nk N']; subst. destruct (IH N') as (ka & xa & kb & xb & Fa & Fb & Na & Nb & Px & A1 & B & C).
    destruct (Nat.ltb_spec k (length l)) as [L|L].
    - exists (k :: ka), (x :: xa), kb, xb. rewrite nth_error_app1 in H by auto.
      split; [constructor; auto|]. split; [auto|]. split; [constructor; auto|]. split; [auto|]. split; [cbn; auto|].
      split; [intros k' [E|Hk]; [lia|auto]|]. split; [intros k' [->|Hk]; cbn; auto|cbn; auto].
    - exists ka, xa, ((k - length l) :: kb), (x :: xb). rewrite nth_error_app2 in H by auto.
      split; [auto|]. split; [constructor; auto|]. split; [auto|].
      split; [constructor; auto; intros Hk; apply C in Hk; replace (length l + (k - length l)) with k in Hk by lia; auto|].
      split; [rewrite Px; apply Permutation_middle|]. split; [intros k' [E|Hk]; [left; lia|right; auto]|].
      split; [cbn; auto|intros k' [<-|Hk]; cbn; [left; lia|auto]]. }
  destruct S as (ka & xa & kb & xb & Fa & Fb & Na & Nb & Px & A1 & _ & _).
  destruct (pick l ka xa Na Fa) as (ra & Pa). destruct (pick t kb xb Nb Fb) as (rb & Pb).
  assert (Fab : Forall (fun x => f x = true) (xa ++ xb)) by (eapply Permutation_Forall; eauto). apply Forall_app in Fab. destruct Fab as (Ffa & Ffb).
  assert (Id : forall m, Forall (fun x => f x = true) m -> filter f m = m).
  { clear. induction 1; cbn; [reflexivity|]. now rewrite H, IHForall. }
  exists xa, (filter f ra). split; [|rewrite <- (filter_perm f _ _ Pa), filter_app, (Id xa Ffa); reflexivity].
  rewrite Px. apply Permutation_app_head. rewrite <- (filter_perm f _ _ Pb), filter_app, (Id xb Ffb).
  (* nothing of [t] is left *)
  assert (E : filter f rb = []); [|rewrite E, app_nil_r; reflexivity].
  (* counting: the indices in [t] which satisfy [f] are among [kb] *)
  assert (Len : length (filter f t) <= length xb).
  { pose (idx := filter (fun k => match nth_error t k with Some x => f x | None => false end) (seq 0 (length t))).
    assert (L1 : length idx = length (filter f t)).
    { exact (index_count f t []). }
    rewrite <- L1, <- (Forall2_len _ _ _ Fb). apply NoDup_incl_length; [apply NoDup_filter, seq_NoDup|].
    intros k Hk. apply filter_In in Hk. destruct Hk as (Hk & Fk). destruct (nth_error t k) as [x|] eqn:Ek; [|discriminate]. eauto. }
  rewrite <- (Permutation_length (filter_perm f _ _ Pb)), filter_app, (Id xb Ffb), app_length in Len. destruct (filter f rb); [reflexivity|cbn in Len; lia].
Qed.

(** A sub-multiset is, up to the order, a subsequence. *)
Lemma perm_sub {A} (l : list A) : forall a b, Permutation (a ++ b) l -> exists a', subseq a' l /\ Permutation a' a.
Proof.
  induction l as [|x l IH]; intros a b P.
  - apply Permutation_sym, Permutation_nil, app_eq_nil in P. destruct P as (-> & _). exists []. split; [constructor|reflexivity].
  - assert (I : In x (a ++ b)) by (eapply Permutation_in; [symmetry; exact P|left; reflexivity]). apply in_app_or in I. destruct I as [I|I]; apply in_split in I.
    + destruct I as (a1 & a2 & ->). rewrite <- app_assoc in P. cbn in P. apply Permutation_sym, Permutation_cons_app_inv, Permutation_sym in P.
      rewrite app_assoc in P. destruct (IH _ _ P) as (a' & S & Q). exists (x :: a'). split; [constructor; auto|]. rewrite Q. apply Permutation_middle.
    + destruct I as (b1 & b2 & ->). rewrite app_assoc in P. apply Permutation_sym, Permutation_cons_app_inv, Permutation_sym in P. rewrite <- app_assoc in P.
      destruct (IH _ _ P) as (a' & S & Q). exists a'. split; [constructor; auto|auto].
Qed.
Lemma subseq_perm {A} (a l : list A) : subseq a l -> exists rest, Permutation (a ++ rest) l.
Proof.
  induction 1 as [l|x l l' S (rest & P)|x l l' S (rest & P)].
  - exists l. reflexivity.
  - exists rest. cbn. auto.
  - exists (x :: rest). rewrite <- Permutation_middle. auto.
Qed.
Lemma subseq_trans {A} (b c : list A) : subseq b c -> forall a, subseq a b -> subseq a c.
Proof.
  induction 1 as [l|x l l' S IH|x l l' S IH]; intros a Ha.
  - inversion Ha; subst. constructor.
  - inversion Ha; subst; constructor; auto.
  - constructor; auto.
Qed.
Lemma subseq_prefix {A} (a b : list A) : subseq a (a ++ b).
Proof. induction a; cbn; constructor; auto. Qed.
Lemma subseq_filter {A} (f : A -> bool) (a b : list A) : subseq a b -> subseq (filter f a) (filter f b).
Proof. induction 1; cbn; [constructor| |]; destruct (f x); try constructor; auto. Qed.
Lemma subseq_full {A} (a b : list A) : subseq a b -> length b <= length a -> a = b.
Proof.
  induction 1 as [l|x l l' S IH|x l l' S IH]; cbn; intros L.
  - destruct l; [reflexivity|cbn in L; lia].
  - f_equal. apply IH. lia.
  - exfalso. assert (length l <= length l') by (clear - S; induction S; cbn; lia). lia.
Qed.
Lemma subseq_sorted {A} (R : A -> A -> Prop) (a b : list A) : subseq a b -> StronglySorted R b -> StronglySorted R a.
Proof.
  induction 1 as [l|x l l' S IH|x l l' S IH]; intros H; [constructor| |]; inversion H as [|? ? H1 H2]; subst; auto.
  constructor; auto. rewrite Forall_forall in *. intros y Hy. apply H2. clear - S Hy. induction S; cbn in *; [contradiction|destruct Hy; auto|auto].
Qed.
(** What is in weak order, of a strictly ascending list, is a subsequence of it. *)
Lemma sorted_sub {A} (dec : forall x y : A, {x = y} + {x <> y}) (lt : A -> A -> bool) (l : list A) : StronglySorted (fun a b => lt a b = true) l ->
  forall a rest, Permutation (a ++ rest) l -> StronglySorted (fun a b => lt b a = false) a -> subseq a l.
Proof.
  induction 1 as [|x l Sl IH Fl]; intros a rest P W.
  - apply Permutation_sym, Permutation_nil, app_eq_nil in P. destruct P as (-> & _). constructor.
  - destruct (in_dec dec x a) as [I|I].
    + assert (Hd : exists a', a = x :: a').
      { destruct a as [|y a']; [destruct I|]. destruct (dec y x) as [->|Nyx]; [eauto|]. exfalso. destruct I as [->|I]; [auto|].
        inversion W as [|? ? W1 W2]; subst. rewrite Forall_forall in W2, Fl. specialize (W2 x I).
        assert (Iy : In y (x :: l)) by (eapply Permutation_in; [exact P|left; reflexivity]). destruct Iy as [->|Iy]; [auto|]. rewrite (Fl y Iy) in W2. discriminate. }
      destruct Hd as (a' & ->). inversion W; subst. cbn in P. apply Permutation_cons_inv in P. constructor. eauto.
    + assert (Ir : In x (a ++ rest)) by (eapply Permutation_in; [symmetry; exact P|left; reflexivity]). apply in_app_or in Ir. destruct Ir as [Ir|Ir]; [contradiction|].
      apply in_split in Ir. destruct Ir as (r1 & r2 & ->). rewrite app_assoc in P. apply Permutation_sym, Permutation_cons_app_inv, Permutation_sym in P.
      rewrite <- app_assoc in P. constructor. eauto.
Qed.

(** Choosing preimages for tagged values, one tag after the other. *)
Lemma interleave {A B} (R : nat -> A -> B -> Prop) : forall (T : list (nat * B)) (Q : nat -> list A -> Prop),
  (forall p, exists ms, Forall2 (R p) ms (tagged p T) /\ Q p ms) ->
  exists pm : list (nat * A), Forall2 (fun x y => fst x = fst y /\ R (fst y) (snd x) (snd y)) pm T /\ forall p, Q p (tagged p pm).
Proof.
  induction T as [|[q b] T IH]; intros Q H.
  - exists []. split; [constructor|]. intros p. destruct (H p) as (ms & F & HQ). inversion F; subst. exact HQ.
  - destruct (H q) as (ms & F & HQ). rewrite tagged_cons, Nat.eqb_refl in F. inversion F as [|m ? ms' ? Hm F']; subst.
    destruct (IH (fun p ms => if p =? q then Q p (m :: ms) else Q p ms)) as (pm & Fpm & Hpm).
    + intros p. destruct (Nat.eqb_spec p q) as [->|N]; [eauto|]. destruct (H p) as (ms & F1 & HQ1). rewrite tagged_cons in F1.
      destruct (Nat.eqb_spec q p); [congruence|]. eauto.
    + exists ((q, m) :: pm). split; [constructor; [cbn; auto|exact Fpm]|]. intros p. specialize (Hpm p). cbn beta in Hpm. rewrite tagged_cons, (Nat.eqb_sym q p).
      destruct (p =? q); exact Hpm.
Qed.

Lemma Forall2_perm_r {A B} (R : A -> B -> Prop) l' : forall l a, Permutation l l' -> Forall2 R a l -> exists a', Permutation a a' /\ Forall2 R a' l'.
Proof.
  intros l a P. revert a. induction P as [|x l l' P IH|x y l|l l' l'' P1 IH1 P2 IH2]; intros a F.
  - inversion F; subst. exists []. auto.
  - inversion F as [|z ? a1 ? H F']; subst. destruct (IH _ F') as (a' & P' & F2). exists (z :: a'). auto.
  - inversion F as [|z1 ? a1 ? H F']; subst. inversion F' as [|z2 ? a2 ? H' F'']; subst. exists (z2 :: z1 :: a2). split; [constructor|auto].
  - destruct (IH1 _ F) as (a1 & Pa & Fa). destruct (IH2 _ Fa) as (a2 & Pb & Fb). exists a2. split; [etransitivity; eauto|auto].
Qed.
Lemma Forall2_compose {A B C} (R : A -> B -> Prop) (S : B -> C -> Prop) l m : Forall2 R l m -> forall n, Forall2 S m n -> Forall2 (fun a c => exists b, R a b /\ S b c) l n.
Proof. induction 1 as [|a b l m Hab Hlm IH]; intros n Hn; inversion Hn; subst; constructor; eauto. Qed.
Lemma Forall2_flat {A B C D} (R : C -> D -> Prop) (f : A -> list C) (g : B -> list D) (P : A -> B -> Prop) l m :
  (forall a b, P a b -> Forall2 R (f a) (g b)) -> Forall2 P l m -> Forall2 R (flat_map f l) (flat_map g m).
Proof. intros H. induction 1; cbn; [constructor|]. apply Forall2_app; auto. Qed.
