(** Facts about [OMap_model]. *)
From Coq Require Import List Arith NArith Ascii Bool Lia Sorted.
Import ListNotations.
From Verif Require Import OMap_model.

Record strict_order {K} (ltb : K -> K -> bool) : Prop := {
  so_irr : forall a, ltb a a = false;
  so_trans : forall a b c, ltb a b = true -> ltb b c = true -> ltb a c = true;
  so_total : forall a b, ltb a b = false -> ltb b a = false -> a = b;
}.

Lemma nat_order : strict_order Nat.ltb.
Proof.
  constructor; intros.
  - apply Nat.ltb_irrefl.
  - rewrite Nat.ltb_lt in *. lia.
  - rewrite Nat.ltb_ge in *. lia.
Qed.

Lemma str_order : strict_order str_ltb.
Proof.
  constructor.
  - induction a as [|x a IH]; cbn; [reflexivity|]. now rewrite N.ltb_irrefl.
  - induction a as [|x a IH]; intros [|y b] [|z c]; cbn; auto; try discriminate.
    destruct (N.ltb_spec (N_of_ascii x) (N_of_ascii y)); destruct (N.ltb_spec (N_of_ascii y) (N_of_ascii z));
      destruct (N.ltb_spec (N_of_ascii x) (N_of_ascii z)); destruct (N.ltb_spec (N_of_ascii y) (N_of_ascii x));
      destruct (N.ltb_spec (N_of_ascii z) (N_of_ascii y)); destruct (N.ltb_spec (N_of_ascii z) (N_of_ascii x)); try lia; try discriminate; auto; apply IH.
  - induction a as [|x a IH]; intros [|y b]; cbn; auto; try discriminate.
    destruct (N.ltb_spec (N_of_ascii x) (N_of_ascii y)); destruct (N.ltb_spec (N_of_ascii y) (N_of_ascii x)); try lia; try discriminate.
    intros H1 H2. assert (E : N_of_ascii x = N_of_ascii y) by lia. rewrite <- (ascii_N_embedding x), <- (ascii_N_embedding y), E. f_equal. auto.
Qed.

Section OMap.
Context {K V : Type}.
Variable ltb : K -> K -> bool.
Hypothesis SO : strict_order ltb.
Implicit Types (m : list (K * V)) (k : K) (v : V).

Notation mf := (mfind ltb). Notation mi := (minsert ltb). Notation me := (merase ltb).

(** In ascending order. *)
Definition lt_keys (a b : K * V) : Prop := ltb (fst a) (fst b) = true.
Definition ordered m : Prop := StronglySorted lt_keys m.

Lemma ordered_nil : ordered [].
Proof. constructor. Qed.

Lemma ltb_asym a b : ltb a b = true -> ltb b a = false.
Proof. intros H. destruct (ltb b a) eqn:E; auto. rewrite <- (so_irr _ SO a). symmetry. eapply (so_trans _ SO); eauto. Qed.

Lemma key_case a b : (ltb a b = true /\ ltb b a = false /\ a <> b) \/ (ltb a b = false /\ ltb b a = true /\ a <> b) \/ (ltb a b = false /\ ltb b a = false /\ a = b).
Proof.
  destruct (ltb a b) eqn:E1; destruct (ltb b a) eqn:E2.
  - rewrite (ltb_asym _ _ E1) in E2. discriminate.
  - left. repeat split; auto. intros ->. rewrite (so_irr _ SO) in E1. discriminate.
  - right; left. repeat split; auto. intros ->. rewrite (so_irr _ SO) in E2. discriminate.
  - right; right. repeat split; auto. now apply (so_total _ SO).
Qed.

Ltac rwg := repeat match goal with H : ltb ?a ?b = _ |- context [ltb ?a ?b] => rewrite H end; rewrite ?(so_irr _ SO).
Ltac kc a b := let A := fresh "A" in let B := fresh "B" in let C := fresh "C" in
  destruct (key_case a b) as [(A & B & C)|[(A & B & C)|(A & B & C)]]; rwg; cbn; rwg; auto; try congruence.

Lemma find_none_above k m : Forall (fun e => ltb k (fst e) = true) m -> mf k m = None.
Proof. destruct m as [|[k' v'] m]; cbn; auto. intros H. inversion H as [|? ? H1 H2]; subst. cbn in H1. now rewrite H1. Qed.

Lemma find_insert_same k v m : mf k (mi k v m) = Some v.
Proof. induction m as [|[k' v'] m IH]; cbn; rwg; auto. kc k k'. Qed.

Lemma find_insert_other k k0 v m : ordered m -> k0 <> k -> mf k0 (mi k v m) = mf k0 m.
Proof.
  intros HO Hn. induction m as [|[k' v'] m IH]; cbn; [kc k0 k|].
  inversion HO as [|? ? Hs Hf]; subst. specialize (IH Hs). kc k k'.
  - kc k0 k. rewrite (so_trans _ SO k0 k k') by assumption. reflexivity.
  - now rewrite IH.
  - subst k'. kc k0 k.
Qed.

Lemma find_erase_same k m : ordered m -> mf k (me k m) = None.
Proof.
  induction m as [|[k' v'] m IH]; intros HO; cbn; auto. inversion HO as [|? ? Hs Hf]; subst. kc k k'.
  apply find_none_above. subst k'. exact Hf.
Qed.

Lemma find_erase_other k k0 m : ordered m -> k0 <> k -> mf k0 (me k m) = mf k0 m.
Proof.
  intros HO Hn. induction m as [|[k' v'] m IH]; cbn; auto. inversion HO as [|? ? Hs Hf]; subst. specialize (IH Hs). kc k k'.
  - now rewrite IH.
  - subst k'. kc k0 k. apply find_none_above. eapply Forall_impl; [|exact Hf].
    intros [a b] H. unfold lt_keys in H. cbn in *. eapply (so_trans _ SO); eauto.
Qed.

Lemma insert_Forall (P : K * V -> Prop) k v m : Forall P m -> P (k, v) -> Forall P (mi k v m).
Proof.
  intros HF HP. induction HF as [|[k' v'] m H1 H2 IH]; cbn; [auto|].
  destruct (ltb k k'); [auto|]. destruct (ltb k' k); auto.
Qed.
Lemma erase_Forall (P : K * V -> Prop) k m : Forall P m -> Forall P (me k m).
Proof.
  intros HF. induction HF as [|[k' v'] m H1 H2 IH]; cbn; [auto|].
  destruct (ltb k k'); [auto|]. destruct (ltb k' k); auto.
Qed.

Lemma ordered_insert k v m : ordered m -> ordered (mi k v m).
Proof.
  unfold ordered. induction m as [|[k' v'] m IH]; intros HO; cbn.
  - repeat constructor.
  - inversion HO as [|? ? Hs Hf]; subst. kc k k'.
    + constructor; [exact HO|]. constructor; [assumption|]. eapply Forall_impl; [|exact Hf].
      intros [a b] H. unfold lt_keys in *. cbn in *. eapply (so_trans _ SO); eauto.
    + constructor; [apply IH; exact Hs|]. apply insert_Forall; auto.
    + subst k'. constructor; auto.
Qed.
Lemma ordered_erase k m : ordered m -> ordered (me k m).
Proof.
  unfold ordered. induction m as [|[k' v'] m IH]; intros HO; cbn; auto.
  inversion HO as [|? ? Hs Hf]; subst. kc k k'.
  constructor; [apply IH; exact Hs|]. apply erase_Forall; auto.
Qed.

Lemma ordered_NoDup m : ordered m -> NoDup (map fst m).
Proof.
  induction 1 as [|[k v] m Hs IH Hf]; cbn; constructor; auto. intros Hin. apply in_map_iff in Hin. destruct Hin as ((k' & v') & E & Hin).
  cbn in E. subst k'. rewrite Forall_forall in Hf. specialize (Hf _ Hin). unfold lt_keys in Hf. cbn in Hf. rewrite (so_irr _ SO) in Hf. discriminate.
Qed.

Lemma find_in k v m : mf k m = Some v -> In (k, v) m.
Proof.
  induction m as [|[k' v'] m IH]; cbn; [discriminate|]. kc k k'. intros H. injection H as <-. subst. auto.
Qed.
Lemma in_find k v m : ordered m -> In (k, v) m -> mf k m = Some v.
Proof.
  induction 1 as [|[k' v'] m Hs IH Hf]; cbn; [contradiction|]. intros [E|Hin].
  - injection E as -> ->. now rewrite (so_irr _ SO).
  - rewrite Forall_forall in Hf. specialize (Hf _ Hin). unfold lt_keys in Hf. cbn in Hf. rewrite Hf, (ltb_asym _ _ Hf). auto.
Qed.
Lemma find_keys k m : ordered m -> mf k m <> None <-> In k (map fst m).
Proof.
  intros HO. split.
  - intros H. destruct (mf k m) as [v|] eqn:E; [|congruence]. apply find_in in E. apply (in_map fst) in E. exact E.
  - intros H. apply in_map_iff in H. destruct H as ((k' & v) & E & Hin). cbn in E. subst k'. rewrite (in_find k v m HO Hin). discriminate.
Qed.
Lemma in_insert k v m x : In x (mi k v m) -> x = (k, v) \/ In x m.
Proof.
  induction m as [|[k' v'] m IH]; cbn; [intuition|]. destruct (ltb k k'); [cbn; intuition|]. destruct (ltb k' k); cbn; intuition.
Qed.
Lemma in_erase k m x : In x (me k m) -> In x m.
Proof.
  induction m as [|[k' v'] m IH]; cbn; [intuition|]. destruct (ltb k k'); [cbn; intuition|]. destruct (ltb k' k); cbn; intuition.
Qed.
End OMap.
