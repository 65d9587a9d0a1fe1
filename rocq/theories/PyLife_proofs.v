(** Proofs about objects on both sides of the Python bindings (C97). *)
From Coq Require Import List Arith Bool Lia.
Import ListNotations.
From Verif Require Import PyLife_model PyLife_spec.

(** ** Basics *)
Lemma is_spec a b : reflect (a = b) (is a b).
Proof. unfold is. destruct (node_eq a b); constructor; assumption. Qed.
Lemma isl_spec a b : reflect (a = b) (isl a b).
Proof. unfold isl. destruct (label_eq a b); constructor; assumption. Qed.
Lemma is_refl a : is a a = true.
Proof. destruct (is_spec a a); congruence. Qed.
Lemma isl_refl a : isl a a = true.
Proof. destruct (isl_spec a a); congruence. Qed.
Lemma mem_spec n l : mem n l = true <-> In n l.
Proof.
  unfold mem. rewrite existsb_exists. split.
  - intros (x & Hx & E). destruct (is_spec n x); [subst; exact Hx|discriminate].
  - intros H. exists n. split; [exact H|apply is_refl].
Qed.
Lemma mem_false n l : mem n l = false <-> ~ In n l.
Proof. rewrite <- mem_spec. destruct (mem n l); split; intros; congruence. Qed.
Lemma wanted_spec s n : wanted s n = true <-> exists a x, In (a, x, n) (s_refs s).
Proof.
  unfold wanted. rewrite existsb_exists. split.
  - intros (((a & x) & b) & H & E). cbn in E. destruct (is_spec b n); [subst|discriminate]. eauto.
  - intros (a & x & H). exists (a, x, n). split; [exact H|]. apply is_refl.
Qed.
Definition num (n : node) : nat := match n with Var v => v | Mgr => 0 | Py o => o | Wrap t => t | Cxx t => t end.
Definition wrapper (n : node) : bool := match n with Wrap _ => true | _ => false end.

Definition gones (tr : list obs) : list node := flat_map (fun o => match o with OGone n => [n] | _ => [] end) tr.
Definition mades (tr : list obs) : list node := flat_map (fun o => match o with OMade n => [n] | _ => [] end) tr.
Notation occ := (count_occ node_eq).

Lemma gones_app a b : gones (a ++ b) = gones a ++ gones b.
Proof. apply flat_map_app. Qed.
Lemma mades_app a b : mades (a ++ b) = mades a ++ mades b.
Proof. apply flat_map_app. Qed.
Lemma gones_map l : gones (map OGone l) = l.
Proof. induction l as [|n l IH]; [reflexivity|]. cbn. f_equal. exact IH. Qed.
Lemma mades_map l : mades (map OGone l) = [].
Proof. induction l as [|n l IH]; [reflexivity|]. exact IH. Qed.
Lemma occ_app l m n : occ (l ++ m) n = occ l n + occ m n.
Proof. apply count_occ_app. Qed.
Lemma occ_zero l n : ~ In n l -> occ l n = 0.
Proof. intros H. apply (count_occ_not_In node_eq). exact H. Qed.
Lemma occ_filter p l n : occ (filter p l) n = if p n then occ l n else 0.
Proof.
  induction l as [|x l IH]; cbn [filter count_occ]; [destruct (p n); reflexivity|].
  destruct (p x) eqn:E; cbn [count_occ]; destruct (node_eq x n) as [->|N]; rewrite IH; try rewrite E; reflexivity.
Qed.
Lemma occ_lost p l n : occ (filter (fun x => negb (mem x (filter p l))) l) n + occ (filter p l) n = occ l n.
Proof.
  rewrite !occ_filter. destruct (p n) eqn:E.
  - destruct (mem n (filter p l)) eqn:M; cbn; [reflexivity|]. apply mem_false in M.
    assert (~ In n l) by (intros H; apply M; apply filter_In; auto). rewrite occ_zero by assumption. reflexivity.
  - assert (M : mem n (filter p l) = false). { apply mem_false. intros H. apply filter_In in H. destruct H as (_ & H). congruence. }
    rewrite M. cbn. lia.
Qed.
Lemma mades_gone a b : mades (gone a b) = [].
Proof. unfold gone. apply mades_map. Qed.
Lemma gones_gone a b : gones (gone a b) = filter (fun n => negb (mem n (s_live b))) (s_live a).
Proof. unfold gone. apply gones_map. Qed.

(** ** Reference counting *)
Definition sound (s : state) : Prop :=
  forall a x b, In (a, x, b) (s_refs s) -> (root a = true \/ In a (s_live s)) /\ In b (s_live s).
Definition full (s : state) : Prop := forall n, In n (s_live s) -> exists a x, In (a, x, n) (s_refs s).

Record sub (s s' : state) : Prop := {
  sub_next : s_next s' = s_next s;
  sub_raw : s_raw s' = s_raw s;
  sub_over : s_over s' = s_over s;
  sub_live : exists p, s_live s' = filter p (s_live s);
  sub_refs : exists q, s_refs s' = filter q (s_refs s) /\ forall e, root (src e) = true \/ In (src e) (s_live s') -> q e = true }.

Lemma filter_filter {A} (p q : A -> bool) l : filter p (filter q l) = filter (fun x => q x && p x) l.
Proof. induction l as [|x l IH]; [reflexivity|]. cbn [filter]. destruct (q x); cbn [filter andb]; [destruct (p x); rewrite IH; reflexivity|exact IH]. Qed.
Lemma filter_true {A} (l : list A) : filter (fun _ => true) l = l.
Proof. induction l as [|x l IH]; [reflexivity|]. cbn. now rewrite IH. Qed.
Lemma sub_refl s : sub s s.
Proof.
  split; try reflexivity.
  - exists (fun _ => true). symmetry. apply filter_true.
  - exists (fun _ => true). split; [symmetry; apply filter_true|reflexivity].
Qed.
Lemma sub_trans a b c : sub a b -> sub b c -> sub a c.
Proof.
  intros [N1 R1 O1 (p1 & L1) (q1 & E1 & Q1)] [N2 R2 O2 (p2 & L2) (q2 & E2 & Q2)].
  split; try congruence.
  - exists (fun n => p1 n && p2 n). rewrite L2, L1. apply filter_filter.
  - exists (fun e => q1 e && q2 e). split; [rewrite E2, E1; apply filter_filter|]. intros e H.
    rewrite Q2 by exact H. rewrite Q1; [reflexivity|]. destruct H as [H|H]; [left; exact H|right]. rewrite L2 in H. apply filter_In in H. apply H.
Qed.
Lemma sub_sweep s : sub s (sweep s).
Proof.
  split; try reflexivity.
  - exists (wanted s). reflexivity.
  - eexists. split; [reflexivity|]. intros e [H|H]; [now rewrite H|]. cbn in H. apply mem_spec in H. rewrite H. apply orb_true_r.
Qed.
Lemma sound_sweep s : sound s -> sound (sweep s).
Proof.
  intros I a x b H. cbn in H. apply filter_In in H. destruct H as (H & Q). cbn in Q. split.
  - apply orb_true_iff in Q. destruct Q as [Q|Q]; [left; exact Q|right]. apply mem_spec in Q. exact Q.
  - cbn. apply filter_In. split; [apply (I a x b H)|]. apply wanted_spec. eauto.
Qed.
Lemma filter_short {A} (p : A -> bool) l : forallb p l = false -> length (filter p l) < length l.
Proof.
  induction l as [|x l IH]; cbn [forallb filter length]; [discriminate|]. destruct (p x); cbn [andb length]; intros H; [apply IH in H; lia|].
  enough (length (filter p l) <= length l) by lia. clear. induction l as [|y l IH]; [auto|]. cbn. destruct (p y); cbn; lia.
Qed.
Lemma settle_ok f : forall s, sound s -> length (s_live s) <= f -> sub s (settle f s) /\ sound (settle f s) /\ full (settle f s).
Proof.
  induction f as [|f IH]; intros s I L.
  - cbn. split; [apply sub_refl|]. split; [exact I|]. intros n H. destruct (s_live s); [destruct H|cbn in L; lia].
  - cbn [settle]. destruct (forallb (wanted s) (s_live s)) eqn:E.
    + split; [apply sub_refl|]. split; [exact I|]. intros n H. rewrite forallb_forall in E. apply E in H. apply wanted_spec in H. exact H.
    + destruct (IH (sweep s)) as (A & B & C); [apply sound_sweep, I| |].
      * apply filter_short in E. cbn. lia.
      * split; [|auto]. eapply sub_trans; [apply sub_sweep|exact A].
Qed.
Lemma settled_ok s o s' o' : sound s -> settled s o = (s', o') -> sub s s' /\ sound s' /\ full s' /\ o' = o ++ gone s s'.
Proof.
  intros I H. unfold settled in H. injection H as <- <-. destruct (settle_ok (length (s_live s)) s I (le_n _)) as (A & B & C). auto.
Qed.

(** ** References *)
Lemma find_ref_in a x l b : find_ref a x l = Some b -> In (a, x, b) l.
Proof.
  unfold find_ref. destruct (find _ l) as [((a' & x') & b')|] eqn:E; [|discriminate]. cbn. intros H. injection H as ->.
  apply find_some in E. destruct E as (E & F). cbn in F. apply andb_true_iff in F. destruct F as (F & G).
  destruct (is_spec a' a); [subst|discriminate]. destruct (isl_spec x' x); [subst|discriminate]. exact E.
Qed.
Lemma find_filter {A} (f q : A -> bool) l : (forall x, f x = true -> q x = true) -> find f (filter q l) = find f l.
Proof.
  intros H. induction l as [|x l IH]; [reflexivity|]. cbn [filter find]. destruct (q x) eqn:E.
  - cbn [find]. rewrite IH. reflexivity.
  - rewrite IH. destruct (f x) eqn:F; [apply H in F; congruence|reflexivity].
Qed.
Lemma find_ref_sub s s' a x : sub s s' -> root a = true \/ In a (s_live s') -> find_ref a x (s_refs s') = find_ref a x (s_refs s).
Proof.
  intros S H. destruct (sub_refs _ _ S) as (q & E & Q). unfold find_ref. rewrite E, find_filter; [reflexivity|].
  intros e F. apply andb_true_iff in F. destruct F as (F & _). destruct (is_spec (src e) a); [subst|discriminate]. apply Q. exact H.
Qed.
Lemma in_unbind a x l e : In e (unbind a x l) <-> In e l /\ ~ (src e = a /\ lbl e = x).
Proof.
  unfold unbind. rewrite filter_In. destruct (is_spec (src e) a), (isl_spec (lbl e) x); cbn; split; intros (H & K); split; try exact H; try tauto; try discriminate; try reflexivity.
Qed.
Lemma in_bind a x b l e : In e (bind a x b l) -> e = (a, x, b) \/ In e l.
Proof. intros [H|H]; [left; now symmetry|right]. apply in_unbind in H. apply H. Qed.
Lemma find_ref_cons a x a' x' b l : find_ref a x ((a', x', b) :: l) = if is a' a && isl x' x then Some b else find_ref a x l.
Proof. unfold find_ref. cbn [find src lbl fst snd]. destruct (is a' a && isl x' x); reflexivity. Qed.
Lemma find_ref_unbind a x a' x' l : (a', x') <> (a, x) -> find_ref a x (unbind a' x' l) = find_ref a x l.
Proof.
  intros N. unfold find_ref, unbind. rewrite find_filter; [reflexivity|]. intros e F. apply andb_true_iff in F. destruct F as (F & G).
  destruct (is_spec (src e) a); [|discriminate]. destruct (isl_spec (lbl e) x); [|discriminate].
  destruct (is_spec (src e) a'), (isl_spec (lbl e) x'); cbn; try reflexivity. exfalso. apply N. congruence.
Qed.
Lemma find_ref_bind a x a' x' b l : (a', x') <> (a, x) -> find_ref a x (bind a' x' b l) = find_ref a x l.
Proof.
  intros N. unfold bind. rewrite find_ref_cons. destruct (is_spec a' a), (isl_spec x' x); cbn [andb]; try (apply find_ref_unbind; exact N). congruence.
Qed.
Lemma find_ref_same a x b l : find_ref a x (bind a x b l) = Some b.
Proof. unfold bind. rewrite find_ref_cons, is_refl, isl_refl. reflexivity. Qed.
Lemma find_ref_none a x l : (forall b, ~ In (a, x, b) l) -> find_ref a x l = None.
Proof. intros H. destruct (find_ref a x l) eqn:E; [|reflexivity]. apply find_ref_in in E. destruct (H _ E). Qed.

(** ** The invariant *)
Record good (s : state) (tr : list obs) : Prop := {
  g_sound : sound s;
  g_num : forall n, In n (s_live s) -> num n < s_next s /\ root n = false;
  g_count : forall n, wrapper n = false -> occ (gones tr) n + occ (s_live s) n = occ (mades tr) n;
  g_once : forall n, occ (mades tr) n <= 1;
  g_later : forall n, s_next s <= num n -> ~ In n (mades tr);
  g_slot : forall t n, In (Cxx t) (s_live s) -> find_ref (Cxx t) (Slot n) (s_refs s) = option_map Py (serving tr t n);
  g_added : forall t n o, In (OAdded t n o) tr -> In (Cxx t) (mades tr);
  g_raw : forall o t, s_raw s o = Some t -> In (Cxx t) (mades tr) }.

Lemma serving_app tr tr' t n : (forall o', ~ In (OAdded t n o') tr') -> serving (tr ++ tr') t n = serving tr t n.
Proof.
  intros N. unfold serving. rewrite fold_left_app. generalize (fold_left (fun r x => match x with OAdded t' n' o => if Nat.eqb t' t && Nat.eqb n' n then Some o else r | _ => r end) tr None).
  induction tr' as [|x l IH]; intros r; [reflexivity|]. cbn [fold_left]. rewrite IH by (intros o' H; apply (N o'); right; exact H).
  destruct x as [| |t' n' o| | | | |]; try reflexivity. destruct (Nat.eqb_spec t' t), (Nat.eqb_spec n' n); cbn [andb]; try reflexivity. subst. destruct (N o). left. reflexivity.
Qed.
Lemma serving_none tr t n : (forall o, ~ In (OAdded t n o) tr) -> serving tr t n = None.
Proof. intros H. apply (serving_app [] tr). exact H. Qed.
Lemma serving_snoc tr t n o t' n' : serving (tr ++ [OAdded t n o]) t' n' = if Nat.eqb t t' && Nat.eqb n n' then Some o else serving tr t' n'.
Proof. unfold serving. rewrite fold_left_app. reflexivity. Qed.
Lemma gone_no_added a b t n o : ~ In (OAdded t n o) (gone a b).
Proof. unfold gone. intros H. apply in_map_iff in H. destruct H as (x & H & _). discriminate H. Qed.
Lemma good_settled s o s' o' tr : good s (tr ++ o) -> settled s o = (s', o') -> good s' (tr ++ o') /\ full s'.
Proof.
  intros G H. destruct (settled_ok s o s' o' (g_sound _ _ G) H) as (U & I & F & ->). split; [|exact F].
  destruct (sub_live _ _ U) as (p & L). rewrite app_assoc. split.
  - exact I.
  - intros n K. rewrite L in K. apply filter_In in K. rewrite (sub_next _ _ U). apply (g_num _ _ G). apply K.
  - intros n K. rewrite gones_app, mades_app, !occ_app, mades_gone, gones_gone, <- (g_count _ _ G n K), L.
    pose proof (occ_lost p (s_live s) n). cbn [count_occ]. lia.
  - intros n. rewrite mades_app, mades_gone, app_nil_r. apply (g_once _ _ G).
  - intros n K. rewrite mades_app, mades_gone, app_nil_r. apply (g_later _ _ G). rewrite (sub_next _ _ U) in K. exact K.
  - intros t n K. rewrite serving_app by (intros; apply gone_no_added). rewrite (find_ref_sub _ _ _ _ U) by (right; exact K).
    apply (g_slot _ _ G). rewrite L in K. apply filter_In in K. apply K.
  - intros t n x K. rewrite mades_app, mades_gone, app_nil_r. apply in_app_iff in K. destruct K as [K|K]; [apply (g_added _ _ G _ _ _ K)|destruct (gone_no_added _ _ _ _ _ K)].
  - intros x t K. rewrite mades_app, mades_gone, app_nil_r. apply (g_raw _ _ G x). rewrite (sub_raw _ _ U) in K. exact K.
Qed.

Definition quiet (o : list obs) : Prop := Forall (fun x => match x with OMade _ | OGone _ | OAdded _ _ _ => False | _ => True end) o.
Lemma quiet_gones o : quiet o -> gones o = [].
Proof. induction 1 as [|x o H _ IH]; [reflexivity|]. destruct x; try destruct H; exact IH. Qed.
Lemma quiet_mades o : quiet o -> mades o = [].
Proof. induction 1 as [|x o H _ IH]; [reflexivity|]. destruct x; try destruct H; exact IH. Qed.
Lemma quiet_added o t n x : quiet o -> ~ In (OAdded t n x) o.
Proof. intros H K. apply (proj1 (Forall_forall _ _) H) in K. exact K. Qed.
(** A change of the references of roots and Python objects, or of none. *)
Lemma good_refs s tr o l : good s tr -> quiet o ->
  (forall a x b, In (a, x, b) l -> (root a = true \/ In a (s_live s)) /\ In b (s_live s)) ->
  (forall t n, In (Cxx t) (s_live s) -> find_ref (Cxx t) (Slot n) l = find_ref (Cxx t) (Slot n) (s_refs s)) ->
  good (refs s l) (tr ++ o).
Proof.
  intros G Q HL HS. split.
  - intros a x b H. cbn. apply (HL a x b H).
  - apply (g_num _ _ G).
  - intros n K. cbn. rewrite gones_app, mades_app, (quiet_gones o Q), (quiet_mades o Q), !app_nil_r. apply (g_count _ _ G n K).
  - intros n. rewrite mades_app, (quiet_mades o Q), app_nil_r. apply (g_once _ _ G).
  - intros n. rewrite mades_app, (quiet_mades o Q), app_nil_r. apply (g_later _ _ G).
  - intros t n K. rewrite serving_app by (intros; apply quiet_added, Q). rewrite <- (g_slot _ _ G) by exact K. apply HS. exact K.
  - intros t n x K. rewrite mades_app, (quiet_mades o Q), app_nil_r. apply in_app_iff in K. destruct K as [K|K]; [apply (g_added _ _ G _ _ _ K)|destruct (quiet_added _ _ _ _ Q K)].
  - intros x t K. rewrite mades_app, (quiet_mades o Q), app_nil_r. apply (g_raw _ _ G x). exact K.
Qed.
Lemma good_quiet s tr o : good s tr -> quiet o -> good s (tr ++ o).
Proof.
  intros G Q. assert (E : s = refs s (s_refs s)) by (destruct s; reflexivity). rewrite E. apply good_refs; auto. intros a x b H. apply (g_sound _ _ G _ _ _ H).
Qed.
Lemma good_over s tr : good s tr -> good (over s) tr.
Proof. intros [A B C D E F G K]. split; auto. Qed.
(** Making a wrapper. *)
Lemma good_wrap s tr t : good s tr -> num (Wrap t) < s_next s -> good (live s (Wrap t :: s_live s)) tr.
Proof.
  intros G N. split.
  - intros a x b H. cbn in H. destruct (g_sound _ _ G _ _ _ H) as (A & B). cbn. tauto.
  - intros n [<-|H]; [auto|apply (g_num _ _ G n H)].
  - intros n K. cbn [live s_live count_occ]. destruct (node_eq (Wrap t) n); [subst; discriminate K|]. apply (g_count _ _ G n K).
  - apply (g_once _ _ G).
  - apply (g_later _ _ G).
  - intros t' n [K|K]; [discriminate K|]. apply (g_slot _ _ G). exact K.
  - apply (g_added _ _ G).
  - apply (g_raw _ _ G).
Qed.
(** Making an object or a transport. *)
Lemma good_make s tr n k : good s tr -> wrapper n = false -> root n = false -> num n < k -> s_next s <= k -> ~ In n (mades tr) ->
  ~ In n (s_live s) ->
  good (upto k (live s (n :: s_live s))) (tr ++ [OMade n]).
Proof.
  intros G W R E L M F. split.
  - intros a x b H. cbn in H. destruct (g_sound _ _ G _ _ _ H) as (A & B). cbn. tauto.
  - intros m [<-|H]; cbn [upto s_next]; [split; [lia|exact R]|]. destruct (g_num _ _ G m H). split; [lia|assumption].
  - intros m K. rewrite gones_app, mades_app, !occ_app. cbn [gones mades flat_map app]. cbn [upto live s_live count_occ].
    pose proof (g_count _ _ G m K). destruct (node_eq n m); lia.
  - intros m. rewrite mades_app, occ_app. cbn [mades flat_map app count_occ]. destruct (node_eq n m) as [<-|N]; [rewrite (occ_zero _ _ M); lia|].
    pose proof (g_once _ _ G m). lia.
  - intros m K. cbn [upto s_next] in K. rewrite mades_app, in_app_iff. intros [H|[H|[]]]; [apply (g_later _ _ G m); [lia|exact H]|]. subst m. lia.
  - intros t x K. rewrite serving_app by (intros o' [Z|[]]; discriminate Z). destruct K as [K|K]; [|apply (g_slot _ _ G); exact K]. subst n.
    rewrite serving_none by (intros o Z; apply (g_added _ _ G) in Z; exact (M Z)). apply find_ref_none. intros b Z. apply (g_sound _ _ G) in Z.
    destruct Z as ([Z|Z] & _); [discriminate Z|exact (F Z)].
  - intros t x o K. rewrite mades_app, in_app_iff. apply in_app_iff in K. destruct K as [K|[K|[]]]; [left; apply (g_added _ _ G _ _ _ K)|discriminate K].
  - intros o t K. rewrite mades_app, in_app_iff. left. apply (g_raw _ _ G o). exact K.
Qed.
Lemma live_made s tr n : good s tr -> wrapper n = false -> In n (s_live s) -> In n (mades tr).
Proof.
  intros G W H. apply (count_occ_In node_eq). apply (count_occ_In node_eq) in H. pose proof (g_count _ _ G n W). lia.
Qed.
(** [addEndpoint]. *)
Lemma good_slot s tr t n o l : good s tr -> In (Cxx t) (s_live s) ->
  (forall a x b, In (a, x, b) l -> (root a = true \/ In a (s_live s)) /\ In b (s_live s)) ->
  (forall t' n', In (Cxx t') (s_live s) ->
     find_ref (Cxx t') (Slot n') l = if is (Cxx t) (Cxx t') && isl (Slot n) (Slot n') then Some (Py o) else find_ref (Cxx t') (Slot n') (s_refs s)) ->
  good (raw o t (refs s l)) (tr ++ [OAdded t n o]).
Proof.
  intros G T HL HS.
  assert (EG : gones (tr ++ [OAdded t n o]) = gones tr) by (rewrite gones_app; apply app_nil_r).
  assert (EM : mades (tr ++ [OAdded t n o]) = mades tr) by (rewrite mades_app; apply app_nil_r).
  split.
  - intros a x b H. cbn. apply (HL a x b H).
  - apply (g_num _ _ G).
  - intros m K. rewrite EG, EM. apply (g_count _ _ G m K).
  - rewrite EM. apply (g_once _ _ G).
  - rewrite EM. apply (g_later _ _ G).
  - intros t' n' K. cbn [raw refs s_refs]. cbn in K. rewrite (HS t' n' K), serving_snoc.
    destruct (is_spec (Cxx t) (Cxx t')) as [A|A]; [destruct (isl_spec (Slot n) (Slot n')) as [B|B]|]; cbn [andb].
    + injection A as <-. injection B as <-. rewrite !Nat.eqb_refl. reflexivity.
    + destruct (Nat.eqb_spec n n'); [subst; congruence|]. rewrite andb_false_r. apply (g_slot _ _ G). exact K.
    + destruct (Nat.eqb_spec t t'); [subst; congruence|]. cbn [andb]. apply (g_slot _ _ G). exact K.
  - intros t' n' o' K. rewrite EM. apply in_app_iff in K. destruct K as [K|[K|[]]]; [apply (g_added _ _ G _ _ _ K)|]. injection K as <- _ _. apply (live_made s tr (Cxx t) G eq_refl T).
  - intros o' t' K. rewrite EM. cbn in K. destruct (Nat.eqb o' o); [injection K as <-; apply (live_made s tr (Cxx t) G eq_refl T)|apply (g_raw _ _ G o' t' K)].
Qed.
(** Python's collector. *)
Lemma find_filter_in {A} (f q : A -> bool) l : (forall x, In x l -> f x = true -> q x = true) -> find f (filter q l) = find f l.
Proof.
  induction l as [|x l IH]; intros H; [reflexivity|]. cbn [filter find]. destruct (q x) eqn:E.
  - cbn [find]. rewrite IH; [reflexivity|]. intros y Hy. apply H. right. exact Hy.
  - rewrite IH by (intros y Hy; apply H; right; exact Hy). destruct (f x) eqn:F; [|reflexivity]. rewrite (H x (or_introl eq_refl) F) in E. discriminate E.
Qed.
Lemma good_gc s tr l : good s tr -> cycle s l = true ->
  let d n := existsb (fun o => is n (Py o)) l in
  good (live (refs s (filter (fun e => negb (d (src e)) && negb (d (dst e))) (s_refs s))) (filter (fun n => negb (d n)) (s_live s)))
       (tr ++ map OGone (filter d (s_live s))).
Proof.
  intros G C d.
  assert (D : forall a x b, In (a, x, b) (s_refs s) -> d b = true -> (exists k, x = Attr k) /\ d a = true).
  { intros a x b H K. unfold cycle in C. rewrite forallb_forall in C. unfold d in K. apply existsb_exists in K. destruct K as (o & Ho & K).
    destruct (is_spec b (Py o)); [subst b|discriminate K]. specialize (C o Ho). rewrite forallb_forall in C. specialize (C _ H). cbn [dst src lbl fst snd] in C.
    rewrite is_refl in C. cbn [negb orb] in C. apply andb_true_iff in C. destruct C as (C1 & C2). split; [|exact C2]. destruct x; try discriminate C1. eauto. }
  split.
  - intros a x b H. cbn in H. apply filter_In in H. destruct H as (H & K). cbn [src dst fst snd] in K. apply andb_true_iff in K. destruct K as (K1 & K2).
    destruct (g_sound _ _ G _ _ _ H) as (A & B). cbn. split; [|apply filter_In; auto]. destruct A as [A|A]; [auto|]. right. apply filter_In. auto.
  - intros n H. cbn in H. apply filter_In in H. apply (g_num _ _ G). apply H.
  - intros n K. rewrite gones_app, gones_map, mades_app, mades_map, app_nil_r, occ_app. cbn [live s_live refs]. rewrite !occ_filter, <- (g_count _ _ G n K).
    destruct (d n); cbn [negb]; lia.
  - intros n. rewrite mades_app, mades_map, app_nil_r. apply (g_once _ _ G).
  - intros n. rewrite mades_app, mades_map, app_nil_r. apply (g_later _ _ G).
  - intros t n K. rewrite serving_app by (intros o' Z; apply in_map_iff in Z; destruct Z as (? & Z & _); discriminate Z).
    cbn in K. apply filter_In in K. rewrite <- (g_slot _ _ G) by apply K. cbn [live refs s_refs]. unfold find_ref. rewrite find_filter_in; [reflexivity|].
    intros ((a & x) & b) H F. cbn [src dst lbl fst snd] in *. apply andb_true_iff in F. destruct F as (F1 & F2).
    destruct (is_spec a (Cxx t)); [subst a|discriminate F1]. destruct (isl_spec x (Slot n)); [subst x|discriminate F2]. destruct K as (_ & K). rewrite K. cbn.
    destruct (d b) eqn:Db; [|reflexivity]. destruct (D _ _ _ H Db) as ((k & Z) & _). discriminate Z.
  - intros t n o K. rewrite mades_app, mades_map, app_nil_r. apply in_app_iff in K. destruct K as [K|K]; [apply (g_added _ _ G _ _ _ K)|]. apply in_map_iff in K. destruct K as (? & Z & _). discriminate Z.
  - intros o t K. rewrite mades_app, mades_map, app_nil_r. apply (g_raw _ _ G o t). exact K.
Qed.

(** ** Every step keeps it *)
Lemma var_live s tr v n : good s tr -> var v s = Some n -> In n (s_live s).
Proof. intros G H. apply find_ref_in in H. apply (g_sound _ _ G _ _ _ H). Qed.
Lemma fresh s tr n : good s tr -> num n = s_next s -> ~ In n (s_live s).
Proof. intros G E H. apply (g_num _ _ G) in H. lia. Qed.
Ltac quiets := repeat constructor.
Lemma good_bind s tr a x b : good s tr -> (root a = true \/ In a (s_live s)) -> (forall t n, (a, x) <> (Cxx t, Slot n)) -> In b (s_live s) ->
  good (refs s (bind a x b (s_refs s))) tr.
Proof.
  intros G A N B. rewrite <- (app_nil_r tr). apply good_refs; [exact G|constructor| |].
  - intros a' x' b' H. apply in_bind in H. destruct H as [H|H]; [injection H as -> -> ->; auto|apply (g_sound _ _ G _ _ _ H)].
  - intros t n _. apply find_ref_bind. apply N.
Qed.
Lemma good_unbind s tr a x : good s tr -> (forall t n, (a, x) <> (Cxx t, Slot n)) -> good (refs s (unbind a x (s_refs s))) tr.
Proof.
  intros G N. rewrite <- (app_nil_r tr). apply good_refs; [exact G|constructor| |].
  - intros a' x' b' H. apply in_unbind in H. apply (g_sound _ _ G _ _ _ (proj1 H)).
  - intros t n _. apply find_ref_unbind. apply N.
Qed.
Lemma good_cons s tr a x b : good s tr -> (root a = true \/ In a (s_live s)) -> (forall t n, (a, x) <> (Cxx t, Slot n)) -> In b (s_live s) ->
  good (refs s ((a, x, b) :: s_refs s)) tr.
Proof.
  intros G A N B. rewrite <- (app_nil_r tr). apply good_refs; [exact G|constructor| |].
  - intros a' x' b' [H|H]; [injection H as <- <- <-; auto|apply (g_sound _ _ G _ _ _ H)].
  - intros t n _. rewrite find_ref_cons. destruct (is_spec a (Cxx t)), (isl_spec x (Slot n)); cbn [andb]; try reflexivity. subst. destruct (N t n eq_refl).
Qed.
(** The order of the list of what exists does not matter. *)
Lemma good_live s tr l : good s tr -> (forall n, In n l <-> In n (s_live s)) -> (forall n, occ l n = occ (s_live s) n) -> good (live s l) tr.
Proof.
  intros [A1 A2 A3 A4 A5 A6 A7 A8] E O. split; cbn [live s_live s_refs s_next s_raw]; auto.
  - intros a x b K. destruct (A1 a x b K) as (B1 & B2). cbn [live s_live]. rewrite !E. tauto.
  - intros n K. apply A2, E, K.
  - intros n K. rewrite O. apply A3, K.
  - intros t n K. apply A6, E, K.
Qed.
Ltac other := let t := fresh in let n := fresh in intros t n; discriminate.
Lemma step_good a s tr s' o : good s tr -> full s -> step a s = (s', o) -> good s' (tr ++ o) /\ full s'.
Proof.
  intros G F H. unfold step in H. destruct (s_over s); [injection H as <- <-; rewrite app_nil_r; auto|].
  assert (RAISE : raised s = (s', o) -> good s' (tr ++ o) /\ full s').
  { intros E. unfold raised in E. injection E as <- <-. split; [apply good_quiet; [exact G|quiets]|exact F]. }
  assert (OVER : forall x, quiet [x] -> (over s, [x]) = (s', o) -> good s' (tr ++ o) /\ full s').
  { intros x Q E. injection E as <- <-. split; [apply good_quiet; [apply good_over; exact G|exact Q]|exact F]. }
  assert (SETTLE : forall s1 o1, good s1 (tr ++ o1) -> settled s1 o1 = (s', o) -> good s' (tr ++ o) /\ full s').
  { intros s1 o1 G1 E. apply (good_settled s1 o1 s' o tr G1 E). }
  destruct a as [v|v|v w|v|v k w|v w k|v k|v n w|v w|v t|v t|v|n keep|t|t n v|l].
  - eapply SETTLE; [|exact H]. set (x := s_next s) in *.
    assert (G1 : good (upto (S x) (live s (Py x :: s_live s))) (tr ++ [OMade (Py x)])).
    { apply good_make; [exact G|reflexivity|reflexivity|apply Nat.lt_succ_diag_r|apply Nat.le_succ_diag_r|apply (g_later _ _ G); reflexivity|apply (fresh s tr); [exact G|reflexivity]]. }
    apply (good_bind _ _ (Var v) Bind (Py x) G1); [left; reflexivity|other|left; reflexivity].
  - eapply SETTLE; [|exact H]. set (t := s_next s) in *.
    assert (G1 : good (upto (S t) (live s (Cxx t :: s_live s))) (tr ++ [OMade (Cxx t)])).
    { apply good_make; [exact G|reflexivity|reflexivity|apply Nat.lt_succ_diag_r|apply Nat.le_succ_diag_r|apply (g_later _ _ G); reflexivity|apply (fresh s tr); [exact G|reflexivity]]. }
    assert (G2 : good (live (upto (S t) (live s (Cxx t :: s_live s))) (Wrap t :: Cxx t :: s_live s)) (tr ++ [OMade (Cxx t)])).
    { apply (good_wrap _ _ t G1). cbn. lia. }
    pose proof (good_bind _ _ (Var v) Bind (Wrap t) G2 (or_introl eq_refl) ltac:(other) (or_introl eq_refl)) as G3.
    pose proof (good_cons _ _ (Wrap t) Holder (Cxx t) G3 (or_intror (or_introl eq_refl)) ltac:(other) (or_intror (or_introl eq_refl))) as G4.
    apply (good_live _ _ (Cxx t :: Wrap t :: s_live s)) in G4; [exact G4| |].
    + intros n. cbn. tauto.
    + intros n. cbn [refs live upto s_live count_occ]. destruct (node_eq (Cxx t) n), (node_eq (Wrap t) n); lia.
  - destruct (var w s) as [n|] eqn:E; [|exact (RAISE H)]. eapply SETTLE; [|exact H]. rewrite app_nil_r.
    apply good_bind; [exact G|left; reflexivity|other|exact (var_live s tr w n G E)].
  - eapply SETTLE; [|exact H]. rewrite app_nil_r. apply good_unbind; [exact G|other].
  - destruct (var v s) as [[| |x| |]|] eqn:E; try exact (RAISE H). destruct (var w s) as [n|] eqn:E2; [|exact (RAISE H)].
    eapply SETTLE; [|exact H]. rewrite app_nil_r. apply good_bind; [exact G|right; exact (var_live s tr v _ G E)|other|exact (var_live s tr w n G E2)].
  - destruct (var w s) as [[| |x| |]|] eqn:E; try exact (RAISE H). destruct (find_ref (Py x) (Attr k) (s_refs s)) as [n|] eqn:E2; [|exact (RAISE H)].
    eapply SETTLE; [|exact H]. rewrite app_nil_r. apply good_bind; [exact G|left; reflexivity|other|]. apply find_ref_in in E2. apply (g_sound _ _ G _ _ _ E2).
  - destruct (var v s) as [[| |x| |]|] eqn:E; try exact (RAISE H). eapply SETTLE; [|exact H]. rewrite app_nil_r. apply good_unbind; [exact G|other].
  - destruct (var v s) as [[| | |t|]|] eqn:E; try exact (RAISE H). destruct (var w s) as [[| |x| |]|] eqn:E2; try exact (RAISE H).
    destruct (mem (Cxx t) (s_live s)) eqn:M; [|apply (OVER OUB); [quiets|exact H]]. apply mem_spec in M.
    apply (var_live s tr v _ G) in E. apply (var_live s tr w _ G) in E2.
    eapply SETTLE; [|exact H]. apply good_slot; [exact G|exact M| |].
    + intros a y b [K|K]; [injection K as <- <- <-; auto|]. apply in_bind in K. destruct K as [K|K]; [injection K as -> -> ->; auto|apply (g_sound _ _ G _ _ _ K)].
    + intros t' n' _. rewrite find_ref_cons. destruct (is_spec (Wrap t) (Cxx t')); [discriminate|]. cbn [andb].
      destruct (is_spec (Cxx t) (Cxx t')) as [A|A]; [destruct (isl_spec (Slot n) (Slot n')) as [B|B]|]; cbn [andb].
      * rewrite <- A, <- B. apply find_ref_same.
      * apply find_ref_bind. congruence.
      * apply find_ref_bind. congruence.
  - destruct (var w s) as [[| |x| |]|] eqn:E; try exact (RAISE H). destruct (s_raw s x) as [t|] eqn:R.
    + destruct (mem (Cxx t) (s_live s)) eqn:M; [|apply (OVER OUB); [quiets|exact H]]. apply mem_spec in M.
      eapply SETTLE; [|exact H]. rewrite app_nil_r. destruct (mem (Wrap t) (s_live s)) eqn:W.
      * apply mem_spec in W. pose proof (good_bind _ _ (Var v) Bind (Wrap t) G (or_introl eq_refl) ltac:(other) W) as G1. destruct s; exact G1.
      * assert (G1 : good (live s (Wrap t :: s_live s)) tr). { apply good_wrap; [exact G|]. apply (g_num _ _ G) in M. cbn in *. apply M. }
        exact (good_bind _ _ (Var v) Bind (Wrap t) G1 (or_introl eq_refl) ltac:(other) (or_introl eq_refl)).
    + eapply SETTLE; [|exact H]. rewrite app_nil_r. apply good_unbind; [exact G|other].
  - destruct (find_ref Mgr (Conn t) (s_refs s)) as [[| | | |t']|] eqn:E; try exact (RAISE H).
    apply find_ref_in in E. apply (g_sound _ _ G) in E. destruct E as (_ & E). destruct (mem (Wrap t') (s_live s)) eqn:W; (eapply SETTLE; [|exact H]); rewrite app_nil_r.
    + apply mem_spec in W. exact (good_bind _ _ (Var v) Bind (Wrap t') G (or_introl eq_refl) ltac:(other) W).
    + assert (G1 : good (live s (Wrap t' :: s_live s)) tr). { apply good_wrap; [exact G|]. apply (g_num _ _ G) in E. cbn in *. apply E. }
      pose proof (good_bind _ _ (Var v) Bind (Wrap t') G1 (or_introl eq_refl) ltac:(other) (or_introl eq_refl)) as G2.
      exact (good_cons _ _ (Wrap t') Holder (Cxx t') G2 (or_intror (or_introl eq_refl)) ltac:(other) (or_intror E)).
  - destruct (find_ref Mgr (Made t) (s_refs s)) as [n|] eqn:E; [|exact (RAISE H)]. apply find_ref_in in E. apply (g_sound _ _ G) in E.
    eapply SETTLE; [|exact H]. rewrite app_nil_r. apply good_bind; [exact G|left; reflexivity|other|apply E].
  - destruct (var v s) as [[| | |t|]|] eqn:E; try exact (RAISE H). destruct (mem (Cxx t) (s_live s)); [|apply (OVER OUB); [quiets|exact H]].
    injection H as <- <-. split; [apply good_quiet; [exact G|quiets]|exact F].
  - set (t := s_next s) in *.
    assert (NL : forall x, num x = t -> ~ In x (s_live s)) by (intros x E; apply (fresh s tr); [exact G|exact E]).
    assert (G1 : good (upto (S t) (live s (Cxx t :: s_live s))) (tr ++ [OMade (Cxx t)])).
    { apply good_make; [exact G|reflexivity|reflexivity|apply Nat.lt_succ_diag_r|apply Nat.le_succ_diag_r|apply (g_later _ _ G); reflexivity|apply NL; reflexivity]. }
    assert (G2 : good (upto (S t) (live (upto (S t) (live s (Cxx t :: s_live s))) (Py t :: Cxx t :: s_live s))) ((tr ++ [OMade (Cxx t)]) ++ [OMade (Py t)])).
    { apply (good_make _ _ (Py t) (S t) G1); [reflexivity|reflexivity|apply Nat.lt_succ_diag_r|apply le_n| |intros [K|K]; [discriminate K|apply (NL (Py t) eq_refl K)]]. rewrite mades_app, in_app_iff. cbn. intros [K|[K|[]]]; [|discriminate K].
      revert K. apply (g_later _ _ G). reflexivity. }
    rewrite <- app_assoc in G2. cbn [app] in G2.
    assert (SLOT : forall l, (l = [(Mgr, Conn t, Cxx t); (Mgr, Made t, Py t)] \/
        (exists k, l = [(Wrap t, Holder, Cxx t); (Py t, Attr k, Wrap t); (Mgr, Conn t, Cxx t); (Mgr, Made t, Py t)])) ->
      forall t' n', find_ref (Cxx t') (Slot n') (l ++ (Cxx t, Slot n, Py t) :: s_refs s) =
      if is (Cxx t) (Cxx t') && isl (Slot n) (Slot n') then Some (Py t) else find_ref (Cxx t') (Slot n') (s_refs s)).
    { intros l Hl t' n'. destruct Hl as [-> |(k & ->)]; cbn [app]; rewrite !find_ref_cons; reflexivity. }
    destruct keep as [k|]; (eapply SETTLE; [|exact H]).
    + assert (G3 : good (live (upto (S t) (live (upto (S t) (live s (Cxx t :: s_live s))) (Py t :: Cxx t :: s_live s))) (Wrap t :: Py t :: Cxx t :: s_live s)) (tr ++ [OMade (Cxx t); OMade (Py t)])).
      { apply (good_wrap _ _ t G2). cbn. lia. }
      apply (good_live _ _ (Cxx t :: Py t :: Wrap t :: s_live s)) in G3; [| |].
      * replace (tr ++ [OMade (Cxx t); OMade (Py t); OAdded t n t]) with ((tr ++ [OMade (Cxx t); OMade (Py t)]) ++ [OAdded t n t]) by (rewrite <- app_assoc; reflexivity).
        refine (good_slot _ _ t n t _ G3 _ _ _).
        -- left. reflexivity.
        -- intros a x b K. cbn [live s_live In]. destruct K as [K|[K|[K|[K|[K|K]]]]]; try (injection K as <- <- <-; cbn; tauto).
           destruct (g_sound _ _ G _ _ _ K). tauto.
        -- intros t' n' _. apply (SLOT [(Wrap t, Holder, Cxx t); (Py t, Attr k, Wrap t); (Mgr, Conn t, Cxx t); (Mgr, Made t, Py t)]). right. exists k. reflexivity.
      * intros x. cbn. tauto.
      * intros x. cbn [refs live upto s_live count_occ]. destruct (node_eq (Cxx t) x), (node_eq (Wrap t) x), (node_eq (Py t) x); lia.
    + apply (good_live _ _ (Cxx t :: Py t :: s_live s)) in G2; [| |].
      * replace (tr ++ [OMade (Cxx t); OMade (Py t); OAdded t n t]) with ((tr ++ [OMade (Cxx t); OMade (Py t)]) ++ [OAdded t n t]) by (rewrite <- app_assoc; reflexivity).
        refine (good_slot _ _ t n t _ G2 _ _ _).
        -- left. reflexivity.
        -- intros a x b K. cbn [live s_live In]. destruct K as [K|[K|[K|K]]]; try (injection K as <- <- <-; cbn; tauto).
           destruct (g_sound _ _ G _ _ _ K). tauto.
        -- intros t' n' _. apply (SLOT [(Mgr, Conn t, Cxx t); (Mgr, Made t, Py t)]). left. reflexivity.
      * intros x. cbn. tauto.
      * intros x. cbn [refs live upto s_live count_occ]. destruct (node_eq (Cxx t) x), (node_eq (Py t) x); lia.
  - eapply SETTLE; [|exact H]. rewrite app_nil_r. pose proof (good_unbind _ _ Mgr (Conn t) G ltac:(other)) as G1.
    exact (good_unbind _ _ Mgr (Made t) G1 ltac:(other)).
  - destruct (mem (Cxx t) (s_live s)); [|injection H as <- <-; rewrite app_nil_r; auto].
    destruct (find_ref (Cxx t) (Slot n) (s_refs s)) as [[| |x| |]|]; try (injection H as <- <-; rewrite app_nil_r; auto; fail).
    destruct (mem (Wrap t) (s_live s)) eqn:W; [|apply (OVER ODied); [quiets|exact H]]. apply mem_spec in W.
    eapply SETTLE; [|exact H]. apply good_quiet; [|quiets]. apply good_bind; [exact G|left; reflexivity|other|exact W].
  - destruct (cycle s l) eqn:C; [|injection H as <- <-; rewrite app_nil_r; auto]. eapply SETTLE; [|exact H]. apply (good_gc s tr l G C).
Qed.

Lemma good_start : good start [] /\ full start.
Proof.
  split; [|intros n []]. split; cbn; try contradiction; try discriminate; auto. intros a x b [].
Qed.
Lemma run_good h : forall s tr s' o, good s tr -> full s -> run h s = (s', o) -> good s' (tr ++ o) /\ full s'.
Proof.
  induction h as [|a h IH]; intros s tr s' o G F H; cbn [run] in H; [injection H as <- <-; rewrite app_nil_r; auto|].
  destruct (step a s) as (s1 & o1) eqn:E1. destruct (run h s1) as (s2 & o2) eqn:E2. injection H as <- <-.
  destruct (step_good a s tr s1 o1 G F E1) as (G1 & F1). rewrite app_assoc. apply (IH s1 (tr ++ o1) s2 o2 G1 F1 E2).
Qed.
Lemma start_good h s tr : run h start = (s, tr) -> good s tr /\ full s.
Proof. intros H. destruct good_start as (G & F). apply (run_good h start [] s tr G F H). Qed.

(** ** What follows *)
Lemma destroyed_occ tr n : destroyed tr n = occ (gones tr) n.
Proof.
  unfold destroyed. induction tr as [|x tr IH]; [reflexivity|]. cbn [filter]. change (gones (x :: tr)) with (gones ([x] ++ tr)). rewrite gones_app, occ_app, <- IH.
  destruct x as [|m| | | | | |]; try reflexivity. cbn. destruct (is_spec n m) as [<-|N]; cbn; destruct (node_eq _ n); try reflexivity; congruence.
Qed.
Lemma in_mades tr n : In (OMade n) tr <-> In n (mades tr).
Proof.
  unfold mades. rewrite in_flat_map. split.
  - intros H. exists (OMade n). split; [exact H|left; reflexivity].
  - intros (x & H & K). destruct x; cbn in K; try destruct K; subst; auto; contradiction.
Qed.
Lemma object_kind n : object n -> wrapper n = false.
Proof. destruct n; cbn; auto; contradiction. Qed.
Lemma alive_not_gone s tr n : good s tr -> object n -> In n (s_live s) -> In (OMade n) tr /\ destroyed tr n = 0.
Proof.
  intros G K H. apply object_kind in K. split; [apply in_mades, (live_made s tr n G K H)|]. rewrite destroyed_occ.
  pose proof (g_count _ _ G n K). pose proof (g_once _ _ G n). apply (count_occ_In node_eq) in H. lia.
Qed.
Lemma not_alive_gone s tr n : good s tr -> object n -> In (OMade n) tr -> ~ In n (s_live s) -> destroyed tr n = 1.
Proof.
  intros G K M H. apply object_kind in K. apply in_mades in M. rewrite destroyed_occ. pose proof (g_count _ _ G n K). pose proof (g_once _ _ G n).
  apply occ_zero in H. apply (count_occ_In node_eq) in M. lia.
Qed.
Lemma reach_live s : sound s -> forall n, reachable s n -> In n (s_live s).
Proof. intros I n H. destruct H as [a x b _ H|a x b _ H]; apply (I _ _ _ H). Qed.
Lemma live_reach s : sound s -> full s -> no_circle s -> forall n, In n (s_live s) -> reachable s n.
Proof.
  intros I F (rank & R). enough (HH : forall k n, rank n < k -> In n (s_live s) -> reachable s n) by (intros n; apply (HH (S (rank n))); lia).
  induction k as [|k IH]; intros n L H; [lia|]. destruct (F n H) as (a & x & E). destruct (I _ _ _ E) as ([A|A] & _).
  - eapply r_root; [exact A|exact E].
  - eapply r_step; [|exact E]. apply IH; [|exact A]. specialize (R _ _ _ E). lia.
Qed.
Lemma kept h s tr n : run h start = (s, tr) -> object n -> reachable s n -> In (OMade n) tr /\ destroyed tr n = 0.
Proof. intros H K R. destruct (start_good h s tr H) as (G & F). apply (alive_not_gone s tr n G K). apply (reach_live s (g_sound _ _ G)). exact R. Qed.
Lemma at_most_once h s tr n : run h start = (s, tr) -> object n -> destroyed tr n <= 1.
Proof.
  intros H K. destruct (start_good h s tr H) as (G & F). rewrite destroyed_occ. apply object_kind in K. pose proof (g_count _ _ G n K). pose proof (g_once _ _ G n). lia.
Qed.
Lemma freed h s tr n : run h start = (s, tr) -> no_circle s -> object n -> In (OMade n) tr -> (destroyed tr n = 1 <-> ~ reachable s n).
Proof.
  intros H C K M. destruct (start_good h s tr H) as (G & F). split.
  - intros D R. destruct (kept h s tr n H K R) as (_ & Z). lia.
  - intros N. apply (not_alive_gone s tr n G K M). intros L. apply N. apply (live_reach s (g_sound _ _ G) F C n L).
Qed.

(** ** Programs that only serve *)
Record plain (s : state) : Prop := {
  p_cxx : forall a x t, In (a, x, Cxx t) (s_refs s) -> a = Wrap t;
  p_mgr : forall x b, ~ In (Mgr, x, b) (s_refs s);
  p_held : forall t, In (Wrap t) (s_live s) -> In (Wrap t, Holder, Cxx t) (s_refs s) }.
Lemma plain_registered s : plain s -> full s -> sound s -> forall t, In (Cxx t) (s_live s) -> In (Wrap t) (s_live s).
Proof.
  intros P F I t H. destruct (F _ H) as (a & x & E). pose proof (p_cxx _ P _ _ _ E) as ->. destruct (I _ _ _ E) as ([Z|Z] & _); [discriminate Z|exact Z].
Qed.
Lemma plain_sub s s' : plain s -> sub s s' -> plain s'.
Proof.
  intros [A B C] U. destruct (sub_live _ _ U) as (p & L). destruct (sub_refs _ _ U) as (q & R & Q). split.
  - intros a x t H. rewrite R in H. apply filter_In in H. apply (A a x t). apply H.
  - intros x b H. rewrite R in H. apply filter_In in H. apply (B x b). apply H.
  - intros t H. rewrite R. apply filter_In. split; [|apply Q; right; exact H]. apply C. rewrite L in H. apply filter_In in H. apply H.
Qed.
Definition calm (o : list obs) : Prop := ~ In ODied o /\ ~ In OUB o.
Lemma calm_gone a b : calm (gone a b).
Proof. split; unfold gone; intros H; apply in_map_iff in H; destruct H as (x & H & _); discriminate H. Qed.
Lemma calm_app a b : calm a -> calm b -> calm (a ++ b).
Proof. intros (A & B) (C & D). split; rewrite in_app_iff; tauto. Qed.
Lemma plain_settled s o s' o' : sound s -> plain s -> calm o -> settled s o = (s', o') -> plain s' /\ calm o'.
Proof.
  intros I P C H. destruct (settled_ok s o s' o' I H) as (U & _ & _ & ->). split; [apply (plain_sub s s' P U)|]. apply calm_app; [exact C|apply calm_gone].
Qed.
Lemma plain_bind s a x b : plain s -> (forall t, b <> Cxx t) -> a <> Mgr -> x <> Holder -> plain (refs s (bind a x b (s_refs s))).
Proof.
  intros [A B C] N M X. split; cbn [refs s_refs s_live].
  - intros a' x' t H. apply in_bind in H. destruct H as [H|H]; [injection H as -> -> <-; destruct (N t eq_refl)|apply (A a' x' t H)].
  - intros x' b' H. apply in_bind in H. destruct H as [H|H]; [injection H as <- _ _; destruct (M eq_refl)|apply (B x' b' H)].
  - intros t H. right. apply in_unbind. split; [apply C, H|]. cbn. intros (_ & E). auto.
Qed.
Lemma plain_unbind s a x : plain s -> x <> Holder -> plain (refs s (unbind a x (s_refs s))).
Proof.
  intros [A B C] X. split; cbn [refs s_refs s_live].
  - intros a' x' t H. apply in_unbind in H. apply (A a' x' t). apply H.
  - intros x' b' H. apply in_unbind in H. apply (B x' b'). apply H.
  - intros t H. apply in_unbind. split; [apply C, H|]. cbn. intros (_ & E). auto.
Qed.
Lemma plain_not_cxx s a x b : plain s -> In (a, x, b) (s_refs s) -> (forall t, a <> Wrap t) -> forall t, b <> Cxx t.
Proof. intros P H N t ->. apply (N t). apply (p_cxx _ P _ _ _ H). Qed.
Ltac calms := split; cbn; intuition discriminate.
Lemma plain_step a s tr s' o : good s tr -> full s -> plain s -> connects a = false -> step a s = (s', o) ->
  plain s' /\ ~ In ODied o /\ (In OUB o -> exists t, In (Cxx t) (mades tr) /\ ~ In (Cxx t) (s_live s)).
Proof.
  intros G F P NC H. pose proof (g_sound _ _ G) as I. unfold step in H. destruct (s_over s); [injection H as <- <-; cbn; tauto|].
  assert (RAISE : raised s = (s', o) -> plain s' /\ ~ In ODied o /\ (In OUB o -> exists t, In (Cxx t) (mades tr) /\ ~ In (Cxx t) (s_live s))).
  { intros E. unfold raised in E. injection E as <- <-. split; [exact P|]. split; [intros [Z|[]]; discriminate Z|intros [Z|[]]; discriminate Z]. }
  assert (SETTLE : forall s1 o1, sound s1 -> plain s1 -> calm o1 -> settled s1 o1 = (s', o) ->
     plain s' /\ ~ In ODied o /\ (In OUB o -> exists t, In (Cxx t) (mades tr) /\ ~ In (Cxx t) (s_live s))).
  { intros s1 o1 I1 P1 C1 E. destruct (plain_settled s1 o1 s' o I1 P1 C1 E) as (P2 & C2 & C3). auto. tauto. }
  assert (SAME : forall l, (forall e, In e l -> In e (s_refs s) \/ (root (src e) = true \/ In (src e) (s_live s)) /\ In (dst e) (s_live s)) -> sound (refs s l)).
  { intros l Hl x y z K. destruct (Hl _ K) as [Q|Q]; [apply (I _ _ _ Q)|exact Q]. }
  assert (BIND : forall x l b, (root x = true \/ In x (s_live s)) -> In b (s_live s) -> sound (refs s (bind x l b (s_refs s)))).
  { intros x l b Hx Hb. apply SAME. intros e K. apply in_bind in K. destruct K as [-> |K]; [right; auto|left; exact K]. }
  assert (UNBIND : forall x l, sound (refs s (unbind x l (s_refs s)))).
  { intros x l. apply SAME. intros e K. apply in_unbind in K. left. apply K. }
  assert (NIL : calm []) by calms.
  destruct a as [v|v|v w|v|v k w|v w k|v k|v n w|v w|v t|v t|v|n keep|t|t n v|l].
  - eapply SETTLE; [| | |exact H].
    + intros x y z K. cbn in K. apply in_bind in K. cbn. destruct K as [K|K]; [injection K as -> -> ->; cbn; tauto|]. destruct (I _ _ _ K). tauto.
    + destruct (plain_bind s (Var v) Bind (Py (s_next s)) P) as [A B C]; try discriminate. split; auto. cbn in *. intros t [K|K]; [discriminate K|]. apply C. exact K.
    + calms.
  - eapply SETTLE; [| | |exact H].
    + intros x y z K. cbn in K. destruct K as [K|K]; [injection K as <- <- <-; cbn; tauto|]. apply in_bind in K. cbn.
      destruct K as [K|K]; [injection K as -> -> ->; cbn; tauto|]. destruct (I _ _ _ K). tauto.
    + destruct (plain_bind s (Var v) Bind (Wrap (s_next s)) P) as [A B C]; try discriminate. split; cbn in *.
      * intros a x t [K|K]; [injection K as <- _ <-; reflexivity|apply (A a x t K)].
      * intros x b [K|K]; [discriminate K|apply (B x b K)].
      * intros t [K|[K|K]]; [discriminate K|injection K as <-; left; reflexivity|right; apply C, K].
    + calms.
  - destruct (var w s) as [n|] eqn:E; [|exact (RAISE H)]. pose proof (var_live s tr w n G E) as L. apply find_ref_in in E.
    eapply SETTLE; [| | |exact H]; [apply BIND; auto|apply plain_bind; [exact P| |discriminate|discriminate]|exact NIL].
    apply (plain_not_cxx s _ _ _ P E). discriminate.
  - eapply SETTLE; [| | |exact H]; [apply UNBIND|apply plain_unbind; [exact P|discriminate]|exact NIL].
  - destruct (var v s) as [[| |x| |]|] eqn:E; try exact (RAISE H). destruct (var w s) as [n|] eqn:E2; [|exact (RAISE H)].
    pose proof (var_live s tr v _ G E) as L. pose proof (var_live s tr w _ G E2) as L2. apply find_ref_in in E2.
    eapply SETTLE; [| | |exact H]; [apply BIND; auto|apply plain_bind; [exact P| |discriminate|discriminate]|exact NIL].
    apply (plain_not_cxx s _ _ _ P E2). discriminate.
  - destruct (var w s) as [[| |x| |]|] eqn:E; try exact (RAISE H). destruct (find_ref (Py x) (Attr k) (s_refs s)) as [n|] eqn:E2; [|exact (RAISE H)].
    apply find_ref_in in E2. eapply SETTLE; [| | |exact H]; [apply BIND; [auto|apply (I _ _ _ E2)]|apply plain_bind; [exact P| |discriminate|discriminate]|exact NIL].
    apply (plain_not_cxx s _ _ _ P E2). discriminate.
  - destruct (var v s) as [[| |x| |]|] eqn:E; try exact (RAISE H).
    eapply SETTLE; [| | |exact H]; [apply UNBIND|apply plain_unbind; [exact P|discriminate]|exact NIL].
  - destruct (var v s) as [[| | |t|]|] eqn:E; try exact (RAISE H). destruct (var w s) as [[| |x| |]|] eqn:E2; try exact (RAISE H).
    pose proof (var_live s tr v _ G E) as L. pose proof (var_live s tr w _ G E2) as L2. pose proof (I _ _ _ (p_held _ P t L)) as (_ & LC).
    rewrite (proj2 (mem_spec _ _) LC) in H. eapply SETTLE; [| | |exact H].
    + intros a y b K. cbn in K. destruct K as [K|K]; [injection K as <- <- <-; cbn; auto|]. apply in_bind in K. destruct K as [K|K]; [injection K as -> -> ->; cbn; auto|apply (I _ _ _ K)].
    + destruct (plain_bind s (Cxx t) (Slot n) (Py x) P) as [A B C]; try discriminate. split; cbn in *.
      * intros a y t' [K|K]; [discriminate K|apply (A a y t' K)].
      * intros y b [K|K]; [discriminate K|apply (B y b K)].
      * intros t' K. right. apply C, K.
    + calms.
  - destruct (var w s) as [[| |x| |]|] eqn:E; try exact (RAISE H). destruct (s_raw s x) as [t|] eqn:R.
    + destruct (mem (Cxx t) (s_live s)) eqn:M.
      * apply mem_spec in M. pose proof (plain_registered s P F I t M) as W. rewrite (proj2 (mem_spec _ _) W) in H.
        change (live (refs s (bind (Var v) Bind (Wrap t) (s_refs s))) (s_live s)) with (refs s (bind (Var v) Bind (Wrap t) (s_refs s))) in H.
        eapply SETTLE; [| | |exact H]; [apply BIND; auto|apply plain_bind; [exact P|discriminate|discriminate|discriminate]|exact NIL].
      * injection H as <- <-. split; [destruct P as [A B C]; split; auto|]. split; [intros [Z|[]]; discriminate Z|]. intros _. exists t. split; [apply (g_raw _ _ G x t R)|]. apply mem_false in M. exact M.
    + eapply SETTLE; [| | |exact H]; [apply UNBIND|apply plain_unbind; [exact P|discriminate]|exact NIL].
  - destruct (find_ref Mgr (Conn t) (s_refs s)) as [n|] eqn:E; [|exact (RAISE H)]. apply find_ref_in in E. destruct (p_mgr _ P _ _ E).
  - destruct (find_ref Mgr (Made t) (s_refs s)) as [n|] eqn:E; [|exact (RAISE H)]. apply find_ref_in in E. destruct (p_mgr _ P _ _ E).
  - destruct (var v s) as [[| | |t|]|] eqn:E; try exact (RAISE H). pose proof (var_live s tr v _ G E) as L. pose proof (I _ _ _ (p_held _ P t L)) as (_ & LC).
    rewrite (proj2 (mem_spec _ _) LC) in H. injection H as <- <-. split; [exact P|]. split; [intros [Z|[]]; discriminate Z|intros [Z|[]]; discriminate Z].
  - discriminate NC.
  - eapply SETTLE; [| | |exact H]; [| |exact NIL].
    + intros x y z K. cbn in K. apply in_unbind in K. destruct K as (K & _). apply in_unbind in K. apply (I _ _ _ (proj1 K)).
    + assert (P1 : plain (refs s (unbind Mgr (Conn t) (s_refs s)))) by (apply plain_unbind; [exact P|discriminate]).
      exact (plain_unbind _ Mgr (Made t) P1 ltac:(discriminate)).
  - destruct (mem (Cxx t) (s_live s)) eqn:M; [|injection H as <- <-; cbn; tauto]. apply mem_spec in M. pose proof (plain_registered s P F I t M) as W.
    rewrite (proj2 (mem_spec _ _) W) in H. destruct (find_ref (Cxx t) (Slot n) (s_refs s)) as [[| |x| |]|]; try (injection H as <- <-; cbn; tauto).
    eapply SETTLE; [| | |exact H]; [apply BIND; auto|apply plain_bind; [exact P|discriminate|discriminate|discriminate]|calms].
  - destruct (cycle s l) eqn:C; [|injection H as <- <-; cbn; tauto]. pose proof (good_gc s tr l G C) as G1. cbv zeta in G1.
    eapply SETTLE; [| | |exact H]; [apply (g_sound _ _ G1)| |].
    + destruct P as [A B D]. split; cbn [live refs s_live s_refs].
      * intros a x t K. apply filter_In in K. apply (A a x t). apply K.
      * intros x b K. apply filter_In in K. apply (B x b). apply K.
      * intros t K. apply filter_In in K. apply filter_In. split; [apply D; apply K|]. cbn [src dst fst snd].
        assert (Z : forall n, (forall o', n <> Py o') -> existsb (fun o' => is n (Py o')) l = false).
        { intros n N. apply not_true_is_false. intros Q. apply existsb_exists in Q. destruct Q as (o' & _ & Q). destruct (is_spec n (Py o')); [subst; apply (N o' eq_refl)|discriminate Q]. }
        rewrite !Z by discriminate. reflexivity.
    + split; intros Z; apply in_map_iff in Z; destruct Z as (? & Z & _); discriminate Z.
Qed.
Lemma plain_start : plain start.
Proof. split; cbn; [intros a x t []|intros x b []|intros t []]. Qed.
Lemma plain_run h : forall s tr s' o, good s tr -> full s -> plain s -> forallb (fun a => negb (connects a)) h = true -> run h s = (s', o) ->
  plain s' /\ ~ In ODied o /\ (In OUB o -> exists t, In (OMade (Cxx t)) (tr ++ o) /\ destroyed (tr ++ o) (Cxx t) = 1).
Proof.
  induction h as [|a h IH]; intros s tr s' o G F P NC H; cbn [run] in H; [injection H as <- <-; cbn; tauto|].
  cbn [forallb] in NC. apply andb_true_iff in NC. destruct NC as (NC1 & NC). apply negb_true_iff in NC1.
  destruct (step a s) as (s1 & o1) eqn:E1. destruct (run h s1) as (s2 & o2) eqn:E2. injection H as <- <-.
  destruct (step_good a s tr s1 o1 G F E1) as (G1 & F1). destruct (plain_step a s tr s1 o1 G F P NC1 E1) as (P1 & D1 & U1).
  destruct (IH s1 (tr ++ o1) s2 o2 G1 F1 P1 NC E2) as (P2 & D2 & U2). split; [exact P2|]. split; [rewrite in_app_iff; tauto|].
  rewrite in_app_iff, app_assoc. intros [K|K]; [|exact (U2 K)]. destruct (U1 K) as (t & M & L). exists t.
  destruct (run_good h s1 (tr ++ o1) s2 o2 G1 F1 E2) as (G2 & _).
  assert (M0 : In (OMade (Cxx t)) tr) by (apply in_mades; exact M).
  assert (M2 : In (OMade (Cxx t)) ((tr ++ o1) ++ o2)) by (rewrite !in_app_iff; auto). split; [exact M2|].
  pose proof (not_alive_gone s tr (Cxx t) G I M0 L) as D. rewrite destroyed_occ in *. pose proof (g_count _ _ G2 (Cxx t) eq_refl). pose proof (g_once _ _ G2 (Cxx t)).
  rewrite !gones_app, !occ_app in *. lia.
Qed.
Lemma served h s tr : forallb (fun a => negb (connects a)) h = true -> run h start = (s, tr) ->
  ~ In ODied tr /\ (In OUB tr -> exists t, In (OMade (Cxx t)) tr /\ destroyed tr (Cxx t) = 1).
Proof. intros N H. destruct good_start as (G & F). apply (plain_run h start [] s tr G F plain_start N H). Qed.
Lemma plain_of h s tr : forallb (fun a => negb (connects a)) h = true -> run h start = (s, tr) -> plain s.
Proof. intros N H. destruct good_start as (G & F). apply (plain_run h start [] s tr G F plain_start N H). Qed.

(** ** Messages *)
Lemma message_general h s tr t n v o : run h start = (s, tr) -> s_over s = false -> serving tr t n = Some o -> destroyed tr (Cxx t) = 0 ->
  destroyed tr (Py o) = 0 /\
  ((exists s' l, step (Message t n v) s = (s', OHandled t n o :: l)) \/ (~ In (Wrap t) (s_live s) /\ snd (step (Message t n v) s) = [ODied])).
Proof.
  intros H O V D. destruct (start_good h s tr H) as (G & F).
  assert (M : In (Cxx t) (mades tr)).
  { destruct (in_dec node_eq (Cxx t) (mades tr)) as [M|M]; [exact M|]. rewrite serving_none in V; [discriminate V|]. intros o' K. apply M. apply (g_added _ _ G _ _ _ K). }
  assert (L : In (Cxx t) (s_live s)).
  { destruct (in_dec node_eq (Cxx t) (s_live s)) as [L|L]; [exact L|]. apply in_mades in M. rewrite (not_alive_gone s tr (Cxx t) G I M L) in D. discriminate D. }
  pose proof (g_slot _ _ G t n L) as E. rewrite V in E. cbn in E. split.
  - apply (alive_not_gone s tr (Py o) G I). apply find_ref_in in E. apply (g_sound _ _ G _ _ _ E).
  - unfold step. rewrite O, (proj2 (mem_spec _ _) L), E. destruct (mem (Wrap t) (s_live s)) eqn:W.
    + left. eexists. eexists. unfold settled. reflexivity.
    + right. split; [apply mem_false; exact W|reflexivity].
Qed.
Lemma message_served h s tr t n v o : forallb (fun a => negb (connects a)) h = true -> run h start = (s, tr) -> s_over s = false ->
  serving tr t n = Some o -> destroyed tr (Cxx t) = 0 ->
  destroyed tr (Py o) = 0 /\ exists s' l, step (Message t n v) s = (s', OHandled t n o :: l).
Proof.
  intros N H O V D. destruct (message_general h s tr t n v o H O V D) as (A & [B|(B & C)]); [auto|]. split; [exact A|]. exfalso. apply B.
  destruct (start_good h s tr H) as (G & F). apply (plain_registered s (plain_of h s tr N H) F (g_sound _ _ G)).
  destruct (in_dec node_eq (Cxx t) (s_live s)) as [L|L]; [exact L|]. unfold step in C. rewrite O, (proj2 (mem_false _ _) L) in C. discriminate C.
Qed.

(** What ends the program. *)
Definition ends (o : obs) : Prop := o = ODied \/ o = OUB.
Lemma over_settle : forall f s, s_over (settle f s) = s_over s.
Proof. induction f as [|f IH]; intros s; cbn; auto. destruct (forallb (wanted s) (s_live s)); auto. now rewrite IH. Qed.
Lemma gone_ends : forall l x, In x (map OGone l) -> ~ ends x.
Proof. intros l x H. apply in_map_iff in H as (n & <- & _). intros [E|E]; discriminate E. Qed.
Lemma settled_ends : forall s o x s' l, settled s o = (s', l) -> (forall y, In y o -> ~ ends y) -> In x l -> ~ ends x.
Proof. intros s o x s' l [= <- <-] N X. apply in_app_or in X as [X|X]; auto. exact (gone_ends _ _ X). Qed.
Lemma step_ends : forall a s s' l, step a s = (s', l) -> (exists x, l = [x] /\ ends x /\ s_over s' = true) \/ (forall x, In x l -> ~ ends x).
Proof.
  intros a s s' l H. unfold step in H. destruct (s_over s); [injection H as <- <-; right; intros x []|].
  assert (B : forall s1 s2 l x, x = OUB \/ x = ODied -> (over s1, [x]) = (s2, l) -> (exists x, l = [x] /\ ends x /\ s_over s2 = true) \/ (forall y, In y l -> ~ ends y)).
  { intros s1 s2 l0 x X [= <- <-]. left. exists x. unfold ends. cbn. tauto. }
  assert (C : forall s1 o s2 l, (forall y, In y o -> ~ ends y) -> settled s1 o = (s2, l) -> (exists x, l = [x] /\ ends x /\ s_over s2 = true) \/ (forall y, In y l -> ~ ends y)).
  { intros s1 o s2 l0 N D. right. intros y Y. exact (settled_ends _ _ _ _ _ D N Y). }
  assert (E : forall s1 s2 l, raised s1 = (s2, l) -> (exists x, l = [x] /\ ends x /\ s_over s2 = true) \/ (forall y, In y l -> ~ ends y)).
  { intros s1 s2 l0 [= <- <-]. right. intros y [<-|[]] [X|X]; discriminate X. }
  destruct a;
  repeat match type of H with context [match ?x with _ => _ end] =>
    match x with settled _ _ => fail 1 | _ => idtac end; destruct x end;
  first [ exact (E _ _ _ H)
        | exact (B _ _ _ _ (or_introl eq_refl) H) | exact (B _ _ _ _ (or_intror eq_refl) H)
        | injection H as <- <-; right; intros y []; fail
        | injection H as <- <-; right; intros y [<-|[]] [X|X]; discriminate X
        | refine (C _ _ _ _ _ H); first [exact (gone_ends _) | intros y Y; repeat (destruct Y as [<-|Y]; [intros [X|X]; discriminate X|]); destruct Y] ].
Qed.
Lemma over_run : forall h s, s_over s = true -> run h s = (s, []).
Proof. induction h as [|a h IH]; intros s O; cbn; auto. unfold step. rewrite O, IH; auto. Qed.
Lemma last_thing : forall h s s' tr a x b, run h s = (s', tr) -> tr = a ++ x :: b -> x = ODied \/ x = OUB -> b = [] /\ s_over s' = true.
Proof.
  induction h as [|o h IH]; intros s s' tr a x b R E X; cbn in R; [injection R as <- <-; destruct a; discriminate E|].
  destruct (step o s) as (s1 & l1) eqn:S1. destruct (run h s1) as (s2 & l2) eqn:S2. injection R as <- <-.
  destruct (step_ends _ _ _ _ S1) as [(y & -> & _ & O)|N].
  - rewrite (over_run h s1 O) in S2. injection S2 as <- <-. destruct a as [|z a]; cbn in E; injection E as -> E; [auto|]. destruct a; discriminate E.
  - assert (Z : exists c, l2 = c ++ x :: b).
    { clear S1 S2. revert a E N. induction l1 as [|z l1 IHl]; intros a E N; [eauto|]. destruct a as [|w a]; cbn in E; injection E as -> E.
      - exfalso. apply (N x); [now left|exact X].
      - eapply IHl; eauto. intros y Y. apply N. now right. }
    destruct Z as (c & ->). exact (IH _ _ _ _ _ _ S2 eq_refl X).
Qed.
