From Coq Require Import List Arith NArith Ascii Bool Lia Sorted.
Import ListNotations.
From Verif Require Import Protocol_model UnixSystem_model UnixSystem_proofs OMap_model OMap_proofs Registry_model Registry_spec.

Lemma str_ltb_before a : forall b, str_ltb a b = true -> before a b.
Proof.
  induction a as [|x a IH]; intros [|y b] H; cbn in H; try discriminate.
  - exists []. right. exists y, b. auto.
  - destruct (N.ltb_spec (N_of_ascii x) (N_of_ascii y)) as [Hlt|Hge].
    + exists []. left. exists x, y, a, b. auto.
    + destruct (N.ltb_spec (N_of_ascii y) (N_of_ascii x)); [discriminate|].
      assert (E : x = y) by (rewrite <- (ascii_N_embedding x), <- (ascii_N_embedding y); f_equal; lia). subst y.
      destruct (IH b H) as (p & [(u & v & a' & b' & -> & -> & Huv)|(v & b' & -> & ->)]).
      * exists (x :: p). left. exists u, v, a', b'. auto.
      * exists (x :: p). right. exists v, b'. auto.
Qed.

Lemma add_all_snoc ops n e : add_all (ops ++ [(n, e)]) = add_endpoint n e (add_all ops).
Proof. unfold add_all. now rewrite fold_left_app. Qed.

Lemma last_added_snoc name ops n e : last_added name (ops ++ [(n, e)]) = if bytes_eqb n name then Some e else last_added name ops.
Proof.
  induction ops as [|[n' e'] ops IH]; cbn; [reflexivity|]. rewrite IH. destruct (bytes_eqb n name); [reflexivity|]. now destruct (last_added name ops).
Qed.

Lemma add_all_ordered ops : ordered str_ltb (rg_map (add_all ops)).
Proof.
  induction ops as [|[n e] ops IH] using rev_ind; [constructor|]. rewrite add_all_snoc. cbn. apply ordered_insert; auto using str_order.
Qed.

Theorem lookup_last ops name : get_endpoint name (add_all ops) = last_added name ops.
Proof.
  induction ops as [|[n e] ops IH] using rev_ind; [reflexivity|]. rewrite add_all_snoc, last_added_snoc. unfold get_endpoint. cbn [add_endpoint rg_map].
  destruct (bytes_eqb n name) eqn:E.
  - apply bytes_eqb_eq in E. subst. apply find_insert_same. exact str_order.
  - rewrite find_insert_other; auto using str_order, add_all_ordered. intros ->. rewrite (proj2 (bytes_eqb_eq n n) eq_refl) in E. discriminate.
Qed.

Theorem introspect_ascending ops : ascending (introspect (add_all ops)).
Proof.
  unfold introspect. generalize (add_all_ordered ops). generalize (rg_map (add_all ops)). intros m H.
  induction H as [|[k v] m Hs IH Hf]; cbn; constructor; auto. rewrite Forall_forall in *. intros k' Hin. apply in_map_iff in Hin.
  destruct Hin as ((k2 & v2) & E & Hin). cbn in E. subst k2. apply str_ltb_before. exact (Hf _ Hin).
Qed.

Theorem introspect_exact ops name : In name (introspect (add_all ops)) <-> exists e, In (name, e) ops.
Proof.
  unfold introspect. rewrite <- (find_keys str_ltb str_order) by apply add_all_ordered.
  change (get_endpoint name (add_all ops) <> None <-> exists e, In (name, e) ops). rewrite lookup_last.
  induction ops as [|[n e] ops IH] using rev_ind; [cbn; split; [congruence|intros (? & [])]|]. rewrite last_added_snoc.
  destruct (bytes_eqb n name) eqn:E.
  - apply bytes_eqb_eq in E. subst. split; [|discriminate]. intros _. exists e. apply in_or_app. right. now left.
  - rewrite IH. split; intros (e' & H); exists e'.
    + apply in_or_app. now left.
    + apply in_app_or in H. destruct H as [H|[H|[]]]; auto. injection H as -> ->. rewrite (proj2 (bytes_eqb_eq name name) eq_refl) in E. discriminate.
Qed.

(** Looking up and introspection agree. *)
Theorem introspect_lookup ops name : In name (introspect (add_all ops)) <-> get_endpoint name (add_all ops) <> None.
Proof. unfold introspect, get_endpoint. symmetry. apply find_keys; [exact str_order|apply add_all_ordered]. Qed.

(** An ascending list has no repetition. *)
Lemma before_irr a : ~ before a a.
Proof.
  intros (p & [(x & y & a' & b' & E1 & E2 & H)|(y & b' & E1 & E2)]).
  - subst a. apply app_inv_head in E2. injection E2 as -> ->. lia.
  - subst a. symmetry in E2. rewrite <- (app_nil_r p) in E2 at 2. apply app_inv_head in E2. discriminate.
Qed.
Theorem ascending_NoDup l : ascending l -> NoDup l.
Proof.
  induction 1 as [|x l Hf Ha IH]; constructor; auto. intros Hin. rewrite Forall_forall in Hf. exact (before_irr x (Hf x Hin)).
Qed.

Theorem bound_all ops e : In e (map snd ops) <-> In e (rg_bound (add_all ops)).
Proof.
  induction ops as [|[n e'] ops IH] using rev_ind; [reflexivity|]. rewrite add_all_snoc, map_app, in_app_iff. cbn. rewrite IH. intuition.
Qed.
